(** Invariants of the field model that hold in every run. *)
From Verif Require Import Base FieldModel FieldSpec.
Open Scope nat_scope.

Definition slot_of_snd (n : snd) : option nat :=
  match n with NAlloc => None | NWrite i | NLoad i | NStore i _ | NReady i => Some i end.
Definition slot_of (x : pc) : option nat :=
  match x with PSetSend n | PUpdSend _ n => slot_of_snd n | _ => None end.
Definition in_set (x : pc) : bool :=
  match x with PSetCopy | PSetUser | PSetValue | PSetSend _ | PSetUnlock => true | _ => false end.
Definition in_get (x : pc) : bool :=
  match x with PGetScan _ _ _ | PGetCas _ _ | PGetCopy _ | PGetUnref _ | PGetUnlock => true | _ => false end.
Definition got (x : pc) : option nat :=
  match x with PGetCopy i | PGetUnref i => Some i | _ => None end.
Definition fits (x : pc) (o : op) : Prop :=
  match x, o with
  | PIdle, _ => True
  | (PSetLock | PSetCopy | PSetUser | PSetValue | PSetSend _ | PSetUnlock), OSet _ => True
  | (PGetLock | PGetScan _ _ _ | PGetCas _ _ | PGetCopy _ | PGetUnref _ | PGetUnlock), OGet => True
  | PUpdSend v _, OUpd u => v = u
  | PUpdRet, OUpd _ => True
  | _, _ => False
  end.

(** ** the slots and the locks *)
Record kinv (p : par) (s : st) : Prop := {
  k_own : forall a i, slot_of (at_ s a) = Some i -> i < p_slots p /\ sst (slots s i) = SWr;
  k_uni : forall a b i, slot_of (at_ s a) = Some i -> slot_of (at_ s b) = Some i -> a = b;
  k_set : forall a, in_set (at_ s a) = true -> mset s = Some a;
  k_get : forall a, in_get (at_ s a) = true -> mget s = Some a;
  k_ref : forall i, (exists t, sst (slots s i) = SRdy t) \/ (sext (slots s i) = 0 /\ sget (slots s i) = false);
  k_got : forall a i, got (at_ s a) = Some i -> sget (slots s i) = true;
  k_sgot : forall i, sget (slots s i) = true -> exists a, got (at_ s a) = Some i;
  k_wr : forall i, sst (slots s i) = SWr -> exists a, slot_of (at_ s a) = Some i
}.

Lemma oldest_in f : forall l best i, oldest f l best = Some i ->
  (In i l /\ (sst (f i) = SInv \/ (exists t, sst (f i) = SRdy t) /\ refs (f i) = 0)) \/ (exists t, best = Some (i, t)).
Proof.
  induction l as [|j r IH]; intros best i H; cbn [oldest] in H.
  - destruct best as [[k t]|]; cbn in H; [|discriminate]. injection H as <-. right. now exists t.
  - destruct (sst (f j)) as [| |t] eqn:E.
    + injection H as <-. left. split; [now left|now left].
    + destruct (IH _ _ H) as [[A B]|B]; [left; split; [now right|exact B]|now right].
    + destruct (Nat.eqb (refs (f j)) 0 && _) eqn:F.
      * destruct (IH _ _ H) as [[A B]|[u B]]; [left; split; [now right|exact B]|].
        injection B as <- <-. left. split; [now left|]. right. apply andb_prop in F. destruct F as [F _].
        apply Nat.eqb_eq in F. split; [now exists t|exact F].
      * destruct (IH _ _ H) as [[A B]|B]; [left; split; [now right|exact B]|now right].
Qed.

Lemma alloc_in p s i : alloc p s = Some i ->
  i < p_slots p /\ (sst (slots s i) = SInv \/ (exists t, sst (slots s i) = SRdy t) /\ refs (slots s i) = 0).
Proof.
  intros H. destruct (oldest_in _ _ _ _ H) as [[A B]|[t B]]; [|discriminate].
  apply in_seq in A. split; [lia|exact B].
Qed.

(** ** a move, step by step *)
Lemma start_k p v0 : 1 <= p_slots p -> kinv p (start v0).
Proof.
  intros Hp. constructor; cbn [start at_ slots mset mget]; try (intros; discriminate).
  - intros i. unfold fupd. destruct (Nat.eqb i 0); [left; now exists 1%N|right; now split].
  - intros i. unfold fupd. destruct (Nat.eqb i 0); discriminate.
  - intros i. unfold fupd. destruct (Nat.eqb i 0); discriminate.
Qed.

(** the state after a step differs in a few fields only *)
Ltac fsplit := repeat match goal with
  | |- context [fupd _ ?i _ ?j] => destruct (Nat.eq_dec j i); [subst; rewrite fupd_eq|rewrite (fupd_neq _ i j) by assumption]
  | H : context [fupd _ ?i _ ?j] |- _ => destruct (Nat.eq_dec j i); [subst; rewrite fupd_eq in H|rewrite (fupd_neq _ i j) in H by assumption]
  end.

Ltac st_cbn := cbn [slots cnt mset mget at_ arg ret dead log set_slot set_cnt set_mset set_mget set_at set_arg set_ret kill tell begin] in *.

(** a change of place that keeps slots *)
Lemma k_place p s a x s' :
  kinv p s -> slots s' = slots s -> at_ s' = fupd (at_ s) a x ->
  slot_of x = slot_of (at_ s a) -> got x = got (at_ s a) ->
  (mset s' = mset s /\ in_set x = in_set (at_ s a) \/ mset s = None /\ mset s' = Some a \/ in_set (at_ s a) = true /\ in_set x = false /\ mset s' = None) ->
  (mget s' = mget s /\ in_get x = in_get (at_ s a) \/ mget s = None /\ mget s' = Some a \/ in_get (at_ s a) = true /\ in_get x = false /\ mget s' = None) ->
  kinv p s'.
Proof.
  intros K Es Ea Hs Hg Hm Hn. destruct K as [k1 k2 k3 k4 k5 k6 k7 k8].
  constructor; rewrite ?Es, ?Ea.
  - intros b i H. fsplit; [rewrite Hs in H|]; eauto.
  - intros b c i H1 H2. apply k2 with i; fsplit; congruence.
  - intros b H. fsplit.
    + destruct Hm as [[A B]|[[A B]|[A [B C]]]]; [rewrite A; apply k3; congruence|exact B|congruence].
    + apply k3 in H. destruct Hm as [[A B]|[[A B]|[A [B C]]]]; [congruence|congruence|].
      apply k3 in A. congruence.
  - intros b H. fsplit.
    + destruct Hn as [[A B]|[[A B]|[A [B C]]]]; [rewrite A; apply k4; congruence|exact B|congruence].
    + apply k4 in H. destruct Hn as [[A B]|[[A B]|[A [B C]]]]; [congruence|congruence|].
      apply k4 in A. congruence.
  - exact k5.
  - intros b i H. fsplit; [rewrite Hg in H|]; eauto.
  - intros i H. destruct (k7 i H) as [b Hb]. exists b. fsplit; congruence.
  - intros i H. destruct (k8 i H) as [b Hb]. exists b. fsplit; congruence.
Qed.

(** a change of the sample or of subscribers' references *)
Lemma k_slot p s i x s' :
  kinv p s -> slots s' = fupd (slots s) i x -> at_ s' = at_ s -> mset s' = mset s -> mget s' = mget s ->
  sst x = sst (slots s i) -> sget x = sget (slots s i) -> (sext x = sext (slots s i) \/ (exists t, sst x = SRdy t)) -> kinv p s'.
Proof.
  intros K Es Ea Em En H1 H2 H3. destruct K as [k1 k2 k3 k4 k5 k6 k7 k8].
  constructor; rewrite ?Es, ?Ea, ?Em, ?En; auto.
  - intros a j H. destruct (k1 a j H) as [A B]. split; [exact A|]. fsplit; congruence.
  - intros j. destruct (Nat.eq_dec j i) as [->|Nj]; [rewrite fupd_eq|rewrite fupd_neq by exact Nj; apply k5]. destruct H3 as [H3|H3]; [|now left]. rewrite H1, H2, H3. apply k5.
  - intros a j H. fsplit; [rewrite H2|]; eauto.
  - intros j H. fsplit; [rewrite H2 in H|]; eauto.
  - intros j H. fsplit; [rewrite H1 in H|]; eauto.
Qed.

(** allocation *)
Lemma k_alloc p s a i x s' :
  kinv p s -> alloc p s = Some i -> slots s' = fupd (slots s) i (mkSlot SWr (sext (slots s i)) (sget (slots s i)) (sval (slots s i))) ->
  at_ s' = fupd (at_ s) a x -> mset s' = mset s -> mget s' = mget s ->
  slot_of (at_ s a) = None -> slot_of x = Some i -> got (at_ s a) = None -> got x = None ->
  in_set x = in_set (at_ s a) -> in_get x = in_get (at_ s a) -> kinv p s'.
Proof.
  intros K Al Es Ea Em En S1 S2 G1 G2 I1 I2. destruct (alloc_in _ _ _ Al) as [Hi Hf].
  destruct K as [k1 k2 k3 k4 k5 k6 k7 k8].
  assert (N0 : forall b, slot_of (at_ s b) <> Some i).
  { intros b H. apply k1 in H. destruct H as [_ H]. destruct Hf as [F|[[t F] _]]; congruence. }
  assert (R0 : sext (slots s i) = 0 /\ sget (slots s i) = false).
  { destruct Hf as [F|[_ F]].
    - destruct (k5 i) as [[t A]|A]; [congruence|exact A].
    - unfold refs in F. destruct (sget (slots s i)); [lia|]. split; [lia|reflexivity]. }
  constructor; rewrite ?Es, ?Ea, ?Em, ?En.
  - intros b j H. destruct (Nat.eq_dec b a) as [->|Nb].
    + rewrite fupd_eq in H. rewrite S2 in H. injection H as <-. rewrite fupd_eq. cbn. now split.
    + rewrite fupd_neq in H by exact Nb. destruct (k1 b j H) as [A B]. split; [exact A|].
      destruct (Nat.eq_dec j i) as [->|Nj]; [now rewrite fupd_eq|now rewrite fupd_neq].
  - intros b c j H1 H2. destruct (Nat.eq_dec b a) as [->|Nb], (Nat.eq_dec c a) as [->|Nc]; auto;
      rewrite ?fupd_eq in *; rewrite ?fupd_neq in H1 by assumption; rewrite ?fupd_neq in H2 by assumption.
    + rewrite S2 in H1. injection H1 as <-. now destruct (N0 c).
    + rewrite S2 in H2. injection H2 as <-. now destruct (N0 b).
    + eauto.
  - intros b H. fsplit; [rewrite I1 in H|]; eauto.
  - intros b H. fsplit; [rewrite I2 in H|]; eauto.
  - intros j. destruct (Nat.eq_dec j i) as [->|Nj]; [rewrite fupd_eq; right; exact R0|rewrite fupd_neq by exact Nj; apply k5].
  - intros b j H. assert (H' : got (at_ s b) = Some j) by (fsplit; congruence).
    apply k6 in H'. clear H; fsplit; cbn [sst sget sext] in *; congruence.
  - intros j H. assert (H' : sget (slots s j) = true) by (fsplit; cbn [sst sget sext] in *; congruence).
    destruct (k7 j H') as [b Hb]. exists b. fsplit; congruence.
  - intros j H. destruct (Nat.eq_dec j i) as [->|Nj].
    + exists a. now rewrite fupd_eq.
    + rewrite fupd_neq in H by exact Nj. destruct (k8 j H) as [b Hb]. exists b. fsplit; congruence.
Qed.

(** EventReady *)
Lemma k_ready p s a i t w x s' :
  kinv p s -> slots s' = fupd (slots s) i (mkSlot (SRdy t) 0 false w) ->
  at_ s' = fupd (at_ s) a x -> mset s' = mset s -> mget s' = mget s ->
  slot_of (at_ s a) = Some i -> slot_of x = None -> got (at_ s a) = None -> got x = None ->
  in_set x = in_set (at_ s a) -> in_get x = in_get (at_ s a) -> kinv p s'.
Proof.
  intros K Es Ea Em En S1 S2 G1 G2 I1 I2.
  destruct K as [k1 k2 k3 k4 k5 k6 k7 k8].
  destruct (k1 a i S1) as [Hi Hw].
  assert (R0 : sget (slots s i) = false).
  { destruct (k5 i) as [[u A]|[A B]]; [congruence|exact B]. }
  constructor; rewrite ?Es, ?Ea, ?Em, ?En.
  - intros b j H. destruct (Nat.eq_dec b a) as [->|Nb].
    + rewrite fupd_eq in H. congruence.
    + rewrite fupd_neq in H by exact Nb. destruct (k1 b j H) as [A B]. split; [exact A|].
      destruct (Nat.eq_dec j i) as [->|Nj]; [now destruct Nb; apply (k2 b a i)|now rewrite fupd_neq].
  - intros b c j H1 H2. destruct (Nat.eq_dec b a) as [->|Nb], (Nat.eq_dec c a) as [->|Nc]; auto;
      rewrite ?fupd_eq in *; rewrite ?fupd_neq in H1 by assumption; rewrite ?fupd_neq in H2 by assumption; try congruence.
    eauto.
  - intros b H. fsplit; [rewrite I1 in H|]; eauto.
  - intros b H. fsplit; [rewrite I2 in H|]; eauto.
  - intros j. destruct (Nat.eq_dec j i) as [->|Nj]; [rewrite fupd_eq; left; now exists t|rewrite fupd_neq by exact Nj; apply k5].
  - intros b j H. assert (H' : got (at_ s b) = Some j) by (fsplit; congruence).
    apply k6 in H'. clear H; fsplit; cbn [sst sget sext] in *; congruence.
  - intros j H. destruct (Nat.eq_dec j i) as [->|Nj]; [rewrite fupd_eq in H; cbn in H; discriminate|].
    rewrite fupd_neq in H by exact Nj.
    destruct (k7 j H) as [b Hb]. exists b. fsplit; congruence.
  - intros j H. destruct (Nat.eq_dec j i) as [->|Nj]; [rewrite fupd_eq in H; cbn in H; discriminate|].
    rewrite fupd_neq in H by exact Nj. destruct (k8 j H) as [b Hb]. exists b.
    fsplit; congruence.
Qed.

(** Get takes or gives back its reference *)
Lemma k_take p s a i x s' t :
  kinv p s -> sst (slots s i) = SRdy t -> slots s' = fupd (slots s) i (mkSlot (sst (slots s i)) (sext (slots s i)) true (sval (slots s i))) ->
  at_ s' = fupd (at_ s) a x -> mset s' = mset s -> mget s' = mget s ->
  slot_of (at_ s a) = None -> slot_of x = None -> got (at_ s a) = None -> got x = Some i ->
  in_set x = in_set (at_ s a) -> in_get x = in_get (at_ s a) -> kinv p s'.
Proof.
  intros K R Es Ea Em En S1 S2 G1 G2 I1 I2.
  destruct K as [k1 k2 k3 k4 k5 k6 k7 k8].
  constructor; rewrite ?Es, ?Ea, ?Em, ?En.
  - intros b j H. assert (H' : slot_of (at_ s b) = Some j) by (fsplit; congruence).
    destruct (k1 b j H') as [A B]. split; [exact A|]. clear H; fsplit; cbn [sst sget sext] in *; congruence.
  - intros b c j H1 H2. apply k2 with j; fsplit; congruence.
  - intros b H. fsplit; [rewrite I1 in H|]; eauto.
  - intros b H. fsplit; [rewrite I2 in H|]; eauto.
  - intros j. destruct (Nat.eq_dec j i) as [->|Nj]; [rewrite fupd_eq; left; exists t; exact R|rewrite fupd_neq by exact Nj; apply k5].
  - intros b j H. destruct (Nat.eq_dec b a) as [->|Nb].
    + rewrite fupd_eq in H. rewrite G2 in H. injection H as <-. now rewrite fupd_eq.
    + rewrite fupd_neq in H by exact Nb. apply k6 in H. fsplit; cbn [sst sget sext] in *; congruence.
  - intros j H. destruct (Nat.eq_dec j i) as [->|Nj]; [exists a; now rewrite fupd_eq|].
    rewrite fupd_neq in H by exact Nj.
    destruct (k7 j H) as [b Hb]. exists b. fsplit; congruence.
  - intros j H. assert (H' : sst (slots s j) = SWr) by (fsplit; exact H).
    destruct (k8 j H') as [b Hb]. exists b. fsplit; congruence.
Qed.

Lemma k_give p s a i x s' :
  kinv p s -> slots s' = fupd (slots s) i (mkSlot (sst (slots s i)) (sext (slots s i)) false (sval (slots s i))) ->
  at_ s' = fupd (at_ s) a x -> mset s' = mset s -> mget s' = mget s ->
  slot_of (at_ s a) = None -> slot_of x = None -> got (at_ s a) = Some i -> got x = None ->
  in_set x = in_set (at_ s a) -> in_get (at_ s a) = true -> in_get x = true -> kinv p s'.
Proof.
  intros K Es Ea Em En S1 S2 G1 G2 I1 I2 I3.
  destruct K as [k1 k2 k3 k4 k5 k6 k7 k8].
  constructor; rewrite ?Es, ?Ea, ?Em, ?En.
  - intros b j H. assert (H' : slot_of (at_ s b) = Some j) by (fsplit; congruence).
    destruct (k1 b j H') as [A B]. split; [exact A|]. clear H; fsplit; cbn [sst sget sext] in *; congruence.
  - intros b c j H1 H2. apply k2 with j; fsplit; congruence.
  - intros b H. fsplit; [rewrite I1 in H|]; eauto.
  - intros b H. apply k4. fsplit; congruence.
  - intros j. destruct (Nat.eq_dec j i) as [->|Nj]; [rewrite fupd_eq|rewrite fupd_neq by exact Nj; apply k5]. destruct (k5 i) as [A|[A B]]; [left; exact A|right; now split].
  - intros b j H. destruct (Nat.eq_dec b a) as [->|Nb]; [rewrite fupd_eq in H; congruence|].
    rewrite fupd_neq in H by exact Nb.
    assert (in_get (at_ s b) = true) by (destruct (at_ s b); try discriminate; reflexivity).
    assert (mget s = Some b) by auto. assert (mget s = Some a) by auto. congruence.
  - intros j H. destruct (Nat.eq_dec j i) as [->|Nj]; [rewrite fupd_eq in H; discriminate|].
    rewrite fupd_neq in H by exact Nj.
    destruct (k7 j H) as [b Hb]. exists b. fsplit; congruence.
  - intros j H. assert (H' : sst (slots s j) = SWr) by (fsplit; exact H).
    destruct (k8 j H') as [b Hb]. exists b. fsplit; congruence.
Qed.

Lemma same_rdy x t r : same x t r = true -> sst x = SRdy t.
Proof. unfold same. destruct (sst x); try discriminate. intros H. apply andb_prop in H. destruct H as [H _]. apply N.eqb_eq in H. now subst. Qed.

Ltac kp := match goal with K : kinv _ ?s, E : at_ ?s ?a = _ |- _ =>
   eapply (k_place _ s a); [exact K|reflexivity|reflexivity|rewrite E; reflexivity|rewrite E; reflexivity| |];
   rewrite ?E; cbn; auto 6 end.

Lemma move_k p a s s' : kinv p s -> move p a s = Some s' -> kinv p s'.
Proof.
  intros K H. unfold move in H. destruct (at_ s a) eqn:E; try discriminate.
  - destruct (mset s) eqn:M; [discriminate|]. injection H as <-. kp.
  - injection H as <-. kp.
  - destruct (ret s a); injection H as <-; [kp|]. destruct K; constructor; assumption.
  - destruct (ret s a); injection H as <-; [kp|]. destruct K; constructor; assumption.
  - destruct n as [|i|i|i t|i]; cbn [send_step] in H.
    + destruct (alloc p s) as [i|] eqn:Al; injection H as <-.
      * eapply (k_alloc _ s a i (PSetSend (NWrite i))); first [exact K|exact Al|reflexivity|rewrite E; reflexivity|idtac].
      * kp.
    + injection H as <-. assert (K' : kinv p (set_slot s i (mkSlot (sst (slots s i)) (sext (slots s i)) (sget (slots s i)) match ret s a with COk v => v | CErr _ => 0%Z end))).
      { eapply (k_slot _ s i); [exact K|reflexivity|reflexivity|reflexivity|reflexivity|reflexivity|reflexivity|left; reflexivity]. }
      eapply (k_place _ _ a _ _ K'); [reflexivity|reflexivity|cbn [at_ set_slot]; rewrite E; reflexivity|cbn [at_ set_slot]; rewrite E; reflexivity| |]; cbn; rewrite ?E; auto.
    + injection H as <-. kp.
    + injection H as <-. kp.
    + injection H as <-. eapply (k_ready _ s a i _ _ PSetUnlock); first [exact K|exact Al|reflexivity|rewrite E; reflexivity|idtac].
  - injection H as <-. kp.
  - destruct (mget s) eqn:M; [discriminate|]. injection H as <-. kp.
  - destruct (Nat.ltb i (p_slots p)); [injection H as <-; kp|]. destruct b as [x|]; injection H as <-; kp.
  - destruct b as [[[i t] r]|]; [|discriminate]. destruct (same (slots s i) t r) eqn:Sm.
    + injection H as <-. eapply (k_take _ s a i (PGetCopy i)); first [exact K|exact (same_rdy _ _ _ Sm)|reflexivity|rewrite E; reflexivity|idtac].
    + destruct (Nat.ltb (S k) max_retries); injection H as <-; kp.
  - injection H as <-. kp.
  - injection H as <-. eapply (k_give _ s a i PGetUnlock); first [exact K|reflexivity|rewrite E; reflexivity|idtac].
  - injection H as <-. kp.
  - destruct n as [|i|i|i t|i]; cbn [send_step] in H.
    + destruct (alloc p s) as [i|] eqn:Al; injection H as <-.
      * eapply (k_alloc _ s a i (PUpdSend v (NWrite i))); first [exact K|exact Al|reflexivity|rewrite E; reflexivity|idtac].
      * kp.
    + injection H as <-. assert (K' : kinv p (set_slot s i (mkSlot (sst (slots s i)) (sext (slots s i)) (sget (slots s i)) v))).
      { eapply (k_slot _ s i); [exact K|reflexivity|reflexivity|reflexivity|reflexivity|reflexivity|reflexivity|left; reflexivity]. }
      eapply (k_place _ _ a _ _ K'); [reflexivity|reflexivity|cbn [at_ set_slot]; rewrite E; reflexivity|cbn [at_ set_slot]; rewrite E; reflexivity| |]; cbn; rewrite ?E; auto.
    + injection H as <-. kp.
    + injection H as <-. kp.
    + injection H as <-. eapply (k_ready _ s a i _ _ PUpdRet); first [exact K|exact Al|reflexivity|rewrite E; reflexivity|idtac].
  - injection H as <-. kp.
Qed.

Lemma step_k p l s s' : kinv p s -> step p l s = Some s' -> kinv p s'.
Proof.
  intros K H. unfold step in H. destruct (dead s); [discriminate|]. destruct l as [a o|a|i|i|a x|a d].
  - destruct (at_ s a) eqn:E; try discriminate. injection H as <-. destruct o; cbn [begin]; kp.
  - eauto using move_k.
  - destruct (Nat.ltb i (p_slots p)); [|discriminate]. destruct (sst (slots s i)) eqn:E; try discriminate.
    injection H as <-. eapply (k_slot _ s i); [exact K|reflexivity|reflexivity|reflexivity|reflexivity|cbn; congruence|reflexivity|right; cbn; eauto].
  - destruct (sext (slots s i)) eqn:E; try discriminate. injection H as <-.
    destruct (k_ref _ _ K i) as [[t A]|[A B]]; [|congruence]. eapply (k_slot _ s i); [exact K|reflexivity|reflexivity|reflexivity|reflexivity|reflexivity|reflexivity|right; exists t; exact A].
  - injection H as <-. destruct K; constructor; assumption.
  - injection H as <-. destruct K; constructor; assumption.
Qed.

Lemma run_k p : forall ls s s', kinv p s -> run p ls s = Some s' -> kinv p s'.
Proof.
  induction ls as [|l r IH]; cbn [run]; intros s s' K H; [now injection H as <-|].
  destruct (step p l s) eqn:E; [|discriminate]. eauto using step_k.
Qed.
