(** Get answers the field's value when values are sent one after the other, not
    while Get searches, and there are enough slots. *)
From Verif Require Import Base FieldModel FieldSpec FieldProof FieldAns FieldGet.
Open Scope nat_scope.

(** ** there is a slot to send into besides the latest *)
Lemma countb_free (f : nat -> bool) (x y : nat) : forall n, countb f n + 2 < n -> exists i, i < n /\ f i = false /\ i <> x /\ i <> y.
Proof.
  assert (C : forall n (g : nat -> bool), countb (fun i => f i || Nat.eqb i x || Nat.eqb i y) n <= countb f n + (if Nat.ltb x n then 1 else 0) + (if Nat.ltb y n then 1 else 0)).
  { induction n as [|n IH]; intros g; cbn [countb]; [lia|]. specialize (IH g).
    destruct (f n), (Nat.eqb_spec n x), (Nat.eqb_spec n y), (Nat.ltb_spec x n), (Nat.ltb_spec y n), (Nat.ltb_spec x (S n)), (Nat.ltb_spec y (S n)); cbn [orb]; lia. }
  assert (D : forall g n, countb g n < n -> exists i, i < n /\ g i = false).
  { intros g. induction n as [|n IH]; cbn [countb]; intros H; [lia|].
    destruct (g n) eqn:E; [|exists n; split; [lia|exact E]]. destruct IH as [i [A B]]; [lia|]. exists i. split; [lia|exact B]. }
  intros n H. specialize (C n f). destruct (D (fun i => f i || Nat.eqb i x || Nat.eqb i y) n) as [i [A B]].
  { destruct (Nat.ltb x n), (Nat.ltb y n); lia. }
  exists i. apply orb_false_iff in B. destruct B as [B B2]. apply orb_false_iff in B. destruct B as [B B1].
  apply Nat.eqb_neq in B1, B2. auto.
Qed.

(** the slot found is older than any free ready slot *)
Lemma oldest_min f : forall l best i, oldest f l best = Some i -> (forall b u, best = Some (b, u) -> sst (f b) = SRdy u) ->
  sst (f i) = SInv \/ exists t, sst (f i) = SRdy t /\
    (forall j u, In j l -> refs (f j) = 0 -> sst (f j) = SRdy u -> (t <= u)%N) /\
    (forall j, In j l -> sst (f j) <> SInv) /\
    (forall b u, best = Some (b, u) -> (t <= u)%N).
Proof.
  induction l as [|j r IH]; intros best i H Hb; cbn [oldest] in H.
  - destruct best as [[k t]|]; cbn in H; [|discriminate]. injection H as <-. right. exists t. specialize (Hb _ _ eq_refl).
    split; [exact Hb|]. split; [intros ? ? []|]. split; [intros ? []|]. intros b u E. injection E as <- <-. lia.
  - destruct (sst (f j)) as [| |t] eqn:E.
    + injection H as <-. now left.
    + destruct (IH _ _ H Hb) as [X|[u [X1 [X2 [X3 X4]]]]]; [now left|]. right. exists u. repeat split; auto.
      * intros k w [->|Hk] R Sk; [congruence|eauto].
      * intros k [->|Hk]; [congruence|eauto].
    + destruct (Nat.eqb (refs (f j)) 0 && _) eqn:B.
      * apply andb_prop in B. destruct B as [B1 B2]. apply Nat.eqb_eq in B1.
        destruct (IH _ _ H) as [X|[u [X1 [X2 [X3 X4]]]]]; [intros k w Ek; injection Ek as <- <-; exact E|now left|]. right. exists u.
        pose proof (X4 _ _ eq_refl) as X5. repeat split; auto.
        -- intros k w [->|Hk] R Sk; [assert (w = t) by congruence; lia|eauto].
        -- intros k [->|Hk]; [congruence|eauto].
        -- intros b w Eb. subst best. lia.
      * destruct (IH _ _ H Hb) as [X|[u [X1 [X2 [X3 X4]]]]]; [now left|]. right. exists u. repeat split; auto.
        -- intros k w [->|Hk] R Sk; [|eauto]. apply andb_false_iff in B. destruct B as [B|B]; [apply Nat.eqb_neq in B; lia|].
           destruct best as [[b v]|]; [|discriminate]. specialize (X4 _ _ eq_refl). assert (w = t) by congruence. lia.
        -- intros k [->|Hk]; [congruence|eauto].
Qed.

(** ** the latest sample *)
Record latest (p : par) (s : st) (l : nat) (t : N) : Prop := {
  l_in : l < p_slots p;
  l_st : sst (slots s l) = SRdy t;
  l_val : sval (slots s l) = current (log s);
  l_max : forall i u, sst (slots s i) = SRdy u -> (u <= t)%N /\ (u = t -> i = l)
}.

Record jcore (p : par) (s : st) : Prop := {
  j_lat : exists l t, latest p s l t /\ (1 <= t)%N /\
     (forall a i u, stg (at_ s a) = Some (NStore i u) -> u = t) /\
     ((cnt s = t /\ forall a i, stg (at_ s a) <> Some (NReady i)) \/ (cnt s = (t + 1)%N /\ exists a i, stg (at_ s a) = Some (NReady i)));
  j_one : forall a b, sending (at_ s a) = true -> sending (at_ s b) = true -> a = b
}.

Lemma sending_stg x : sending x = match stg x with None | Some NAlloc => false | Some _ => true end.
Proof. destruct x as [| | | | | [] | | | | | | | | v [] | ]; reflexivity. Qed.

Lemma begins_stg x : begins x = match stg x with Some NAlloc => true | _ => false end.
Proof. destruct x as [| | | | | [] | | | | | | | | v [] | ]; reflexivity. Qed.

Lemma sending_slot x : sending x = false -> slot_of x = None.
Proof. destruct x as [| | | | | [] | | | | | | | | v [] | ]; cbn; congruence. Qed.

(** the slots and stages after a step that sends nothing *)
Lemma core_like p s s' : jcore p s -> like s s' -> cnt s' = cnt s ->
  (forall a, sending (at_ s' a) = true -> stg (at_ s' a) = stg (at_ s a)) ->
  (forall a, sending (at_ s a) = true -> stg (at_ s' a) = stg (at_ s a)) ->
  current (log s') = current (log s) -> jcore p s'.
Proof.
  intros [[l [t [L [T [St Ct]]]]] One] Lk Ec Sg Sg' Lg. constructor.
  - exists l, t. split; [|split; [exact T|]].
    + destruct L as [L1 L2 L3 L4]. destruct (Lk l) as [A B]. constructor; [exact L1|congruence|congruence|].
      intros i u H. apply L4. destruct (Lk i) as [C _]. congruence.
    + rewrite Ec. split.
      * intros a i u H. apply (St a i). rewrite <- Sg; [exact H|]. rewrite sending_stg, H. reflexivity.
      * destruct Ct as [[C N]|[C [a [i N]]]].
        -- left. split; [exact C|]. intros a i H. apply (N a i). rewrite <- Sg; [exact H|]. rewrite sending_stg, H. reflexivity.
        -- right. split; [exact C|]. exists a, i. rewrite Sg'; [exact N|]. rewrite sending_stg, N. reflexivity.
  - intros a b Ha Hb. apply One; rewrite sending_stg; rewrite <- Sg by assumption; rewrite <- sending_stg; assumption.
Qed.

(** besides the slots of subscribers, of Get and a given one there is a further slot *)
Lemma free_slot p s l : kinv p s -> (forall a, sending (at_ s a) = false) -> held p s + 3 <= p_slots p ->
  exists k, k < p_slots p /\ k <> l /\ refs (slots s k) = 0.
Proof.
  intros K O Rm.
  assert (Eg : exists g, forall k, sget (slots s k) = true -> k = g).
  { destruct (mget s) as [c|] eqn:Mg.
    - destruct (got (at_ s c)) as [g|] eqn:Gc.
      + exists g. intros k Hk. destruct (k_sgot _ _ K k Hk) as [e He].
        assert (in_get (at_ s e) = true) by (destruct (at_ s e); try discriminate; reflexivity).
        assert (mget s = Some e) by (apply (k_get _ _ K); assumption). congruence.
      + exists 0. intros k Hk. destruct (k_sgot _ _ K k Hk) as [e He].
        assert (in_get (at_ s e) = true) by (destruct (at_ s e); try discriminate; reflexivity).
        assert (mget s = Some e) by (apply (k_get _ _ K); assumption). congruence.
    - exists 0. intros k Hk. destruct (k_sgot _ _ K k Hk) as [e He].
      assert (in_get (at_ s e) = true) by (destruct (at_ s e); try discriminate; reflexivity).
      assert (mget s = Some e) by (apply (k_get _ _ K); assumption). congruence. }
  destruct Eg as [g Eg].
  destruct (countb_free (fun i => Nat.ltb 0 (sext (slots s i))) l g (p_slots p)) as [k [K1 [K2 [K3 K4]]]]; [unfold held in Rm; lia|].
  apply Nat.ltb_ge in K2. exists k. repeat split; auto.
  unfold refs. destruct (sget (slots s k)) eqn:Gk; [destruct K4; now apply Eg|lia].
Qed.

Lemma core_step p l s s' : kinv p s -> jcore p s -> one_sender s l -> room p s l -> step p l s = Some s' -> jcore p s'.
Proof.
  intros K J O Rm H. destruct l as [b o|b|j|j|b x|b d].
  2:{ pose proof H as H0. unfold step in H. destruct (dead s); [discriminate|].
      assert (Fr : forall a, a <> b -> at_ s' a = at_ s a) by (intros a N; exact (f_at _ _ _ (move_frame _ _ _ _ _ N H))).
      specialize (O b eq_refl). specialize (Rm b eq_refl).
      destruct (move_effect _ _ _ _ H) as [Lk Ec S1 S2 Lg|i B Al Es Ec Lg Sg|i v Sg Sg' Es Ec Lg|i Sg Sg' Es Ec Lg|i u Sg Sg' Es Ec Lg|i Sg Sg' Es Ec Lg].
      - apply (core_like p s); auto.
        + intros a Ha. destruct (Nat.eq_dec a b) as [->|N]; [congruence|now rewrite Fr].
        + intros a Ha. destruct (Nat.eq_dec a b) as [->|N]; [congruence|now rewrite Fr].
        + destruct Lg as [->| ->]; reflexivity.
      - (* allocation *)
        specialize (O B). specialize (Rm B). destruct J as [[l [t [L [T [St Ct]]]]] One].
        assert (NW : forall k, sst (slots s k) <> SWr).
        { intros k W. destruct (k_wr _ _ K k W) as [a Ha]. rewrite (sending_slot _ (O a)) in Ha. discriminate. }
        assert (NR : forall a k, stg (at_ s a) <> Some (NReady k)).
        { intros a k E. specialize (O a). rewrite sending_stg, E in O. discriminate. }
        destruct Ct as [[Ct _]|[_ [a [k E]]]]; [|now destruct (NR a k)].
        assert (Nl : i <> l).
        { intros ->. destruct (oldest_min _ _ _ _ Al) as [X|[u [X1 [X2 [X3 _]]]]]; [intros k w Ek; discriminate|rewrite (l_st _ _ _ _ L) in X; discriminate|].
          destruct (free_slot p s l K O Rm) as [k [K1 [K3 Rk]]].
          destruct (sst (slots s k)) as [| |w] eqn:Sk.
          - apply (X3 k); [apply in_seq; lia|exact Sk].
          - now apply (NW k).
          - destruct (l_max _ _ _ _ L k w Sk) as [A1 A2].
            assert (u <= w)%N by (apply (X2 k); [apply in_seq; lia|exact Rk|exact Sk]).
            rewrite (l_st _ _ _ _ L) in X1. injection X1 as ->. apply K3, A2. lia. }
        constructor.
        + exists l, t. split; [|split; [exact T|]].
          * destruct L as [L1 L2 L3 L4]. constructor; rewrite ?Es, ?Lg; [exact L1|now rewrite fupd_neq by congruence|now rewrite fupd_neq by congruence|].
            intros k u Hk. destruct (Nat.eq_dec k i) as [->|N]; [rewrite fupd_eq in Hk; discriminate|rewrite fupd_neq in Hk by exact N; auto].
          * rewrite Ec. split.
            -- intros a k u E. destruct (Nat.eq_dec a b) as [->|N]; [congruence|]. rewrite Fr in E by exact N. eauto.
            -- left. split; [exact Ct|]. intros a k E. destruct (Nat.eq_dec a b) as [->|N]; [congruence|]. rewrite Fr in E by exact N. now apply (NR a k).
        + intros a c Ha Hc. assert (a = b). { destruct (Nat.eq_dec a b) as [|N]; [assumption|]. rewrite Fr in Ha by exact N. rewrite O in Ha. discriminate. }
          assert (c = b). { destruct (Nat.eq_dec c b) as [|N]; [assumption|]. rewrite Fr in Hc by exact N. rewrite O in Hc. discriminate. } congruence.
      - (* writing the sample *)
        pose proof (stg_slot _ _ Sg) as So. cbn in So. destruct (k_own _ _ K b i So) as [_ W].
        destruct J as [[l [t [L [T [St Ct]]]]] One]. constructor.
        + exists l, t. split; [|split; [exact T|]].
          * destruct L as [L1 L2 L3 L4]. assert (l <> i) by congruence. constructor; rewrite ?Es, ?Lg; [exact L1|now rewrite fupd_neq|now rewrite fupd_neq|].
            intros k u Hk. apply L4. destruct (Nat.eq_dec k i) as [->|N]; [rewrite fupd_eq in Hk; exact Hk|rewrite fupd_neq in Hk by exact N; exact Hk].
          * rewrite Ec. split.
            -- intros a k u E. destruct (Nat.eq_dec a b) as [->|N]; [congruence|]. rewrite Fr in E by exact N. eauto.
            -- destruct Ct as [[Ct N]|[Ct [a [k N]]]].
               ++ left. split; [exact Ct|]. intros a k E. destruct (Nat.eq_dec a b) as [->|Na]; [congruence|]. rewrite Fr in E by exact Na. now apply (N a k).
               ++ exfalso. assert (a = b) by (apply One; rewrite sending_stg; [now rewrite N|now rewrite Sg]). subst. congruence.
        + intros a c Ha Hc. apply One.
          * destruct (Nat.eq_dec a b) as [->|N]; [rewrite sending_stg, Sg; reflexivity|now rewrite Fr in Ha].
          * destruct (Nat.eq_dec c b) as [->|N]; [rewrite sending_stg, Sg; reflexivity|now rewrite Fr in Hc].
      - (* loading the timestamp *)
        destruct J as [[l [t [L [T [St Ct]]]]] One].
        assert (Ct' : cnt s = t /\ forall a k, stg (at_ s a) <> Some (NReady k)).
        { destruct Ct as [Ct|[Ct [a [k N]]]]; [exact Ct|]. exfalso. assert (a = b) by (apply One; rewrite sending_stg; [now rewrite N|now rewrite Sg]). subst. congruence. }
        destruct Ct' as [C N]. constructor.
        + exists l, t. split; [|split; [exact T|]].
          * destruct L as [L1 L2 L3 L4]. constructor; rewrite ?Es, ?Lg; auto.
          * rewrite Ec. split.
            -- intros a k u E. destruct (Nat.eq_dec a b) as [->|Na]; [congruence|]. rewrite Fr in E by exact Na. eauto.
            -- left. split; [exact C|]. intros a k E. destruct (Nat.eq_dec a b) as [->|Na]; [congruence|]. rewrite Fr in E by exact Na. now apply (N a k).
        + intros a c Ha Hc. apply One.
          * destruct (Nat.eq_dec a b) as [->|Na]; [rewrite sending_stg, Sg; reflexivity|now rewrite Fr in Ha].
          * destruct (Nat.eq_dec c b) as [->|Na]; [rewrite sending_stg, Sg; reflexivity|now rewrite Fr in Hc].
      - (* storing it *)
        destruct J as [[l [t [L [T [St Ct]]]]] One].
        assert (u = t) by eauto. subst u. constructor.
        + exists l, t. split; [|split; [exact T|]].
          * destruct L as [L1 L2 L3 L4]. constructor; rewrite ?Es, ?Lg; auto.
          * rewrite Ec. split.
            -- intros a k u E. destruct (Nat.eq_dec a b) as [->|Na]; [congruence|]. rewrite Fr in E by exact Na. eauto.
            -- right. split; [reflexivity|]. now exists b, i.
        + intros a c Ha Hc. apply One.
          * destruct (Nat.eq_dec a b) as [->|Na]; [rewrite sending_stg, Sg; reflexivity|now rewrite Fr in Ha].
          * destruct (Nat.eq_dec c b) as [->|Na]; [rewrite sending_stg, Sg; reflexivity|now rewrite Fr in Hc].
      - (* ready *)
        pose proof (stg_slot _ _ Sg) as So. cbn in So. destruct (k_own _ _ K b i So) as [Hi W].
        destruct J as [[l [t [L [T [St Ct]]]]] One].
        assert (C : cnt s = (t + 1)%N). { destruct Ct as [[_ N]|[C _]]; [now destruct (N b i)|exact C]. }
        assert (Nx : forall a, a <> b -> sending (at_ s a) = false).
        { intros a Na. destruct (sending (at_ s a)) eqn:E; [|reflexivity]. destruct Na. apply One; [exact E|]. rewrite sending_stg, Sg. reflexivity. }
        constructor.
        + exists i, (t + 1)%N. split; [|split; [lia|]].
          * constructor; rewrite ?Es, ?Lg, ?fupd_eq; [exact Hi|cbn; congruence|reflexivity|].
            intros k u Hk. destruct (Nat.eq_dec k i) as [->|Nk].
            -- rewrite fupd_eq in Hk. cbn in Hk. injection Hk as <-. split; [lia|reflexivity].
            -- rewrite fupd_neq in Hk by exact Nk. apply (l_max _ _ _ _ L) in Hk. lia.
          * rewrite Ec. split.
            -- intros a k u E. destruct (Nat.eq_dec a b) as [->|Na]; [congruence|]. rewrite Fr in E by exact Na.
               specialize (Nx a Na). rewrite sending_stg, E in Nx. discriminate.
            -- left. split; [exact C|]. intros a k E. destruct (Nat.eq_dec a b) as [->|Na]; [congruence|]. rewrite Fr in E by exact Na.
               specialize (Nx a Na). rewrite sending_stg, E in Nx. discriminate.
        + intros a c Ha Hc. destruct (Nat.eq_dec a b) as [->|Na]; [rewrite sending_stg, Sg' in Ha; discriminate|].
          rewrite Fr, Nx in Ha by exact Na. discriminate. }
  all: destruct (fun X => env_like p _ s s' X H) as [Lk [Ec [Sd Lg]]]; [intros; discriminate|];
    assert (Sg : forall a, sending (at_ s' a) = true -> stg (at_ s' a) = stg (at_ s a));
    [|apply (core_like p s); auto; [intros a Ha; apply Sg; now rewrite Sd|destruct Lg as [->|[c [o' ->]]]; reflexivity]].
  - intros a Ha. destruct (Nat.eq_dec a b) as [->|N].
    + rewrite Sd in Ha. unfold step in H. destruct (dead s); [discriminate|]. destruct (at_ s b); discriminate.
    + assert (X : actor (LCall b o) <> Some a) by (cbn; congruence). rewrite (f_at _ _ _ (step_frame p a _ s s' X H)). reflexivity.
  - intros a Ha. assert (X : actor (LRef j) <> Some a) by (cbn; congruence). rewrite (f_at _ _ _ (step_frame p a _ s s' X H)). reflexivity.
  - intros a Ha. assert (X : actor (LUnref j) <> Some a) by (cbn; congruence). rewrite (f_at _ _ _ (step_frame p a _ s s' X H)). reflexivity.
  - intros a Ha. unfold step in H. destruct (dead s); [discriminate|]. now injection H as <-.
  - intros a Ha. unfold step in H. destruct (dead s); [discriminate|]. now injection H as <-.
Qed.

(** ** the search *)
Definition gscan (p : par) (s : st) (a i : nat) (b : cand) : Prop :=
  exists l t, l < p_slots p /\ sst (slots s l) = SRdy t /\ (1 <= t)%N /\
    (forall j u, sst (slots s j) = SRdy u -> (t <= u)%N -> In (sval (slots s j)) (values_during a (log s))) /\
    (l < i -> exists j u r, b = Some (j, u, r) /\ (t <= u)%N).

Definition jscan (p : par) (bad : nat -> bool) (s : st) (a : nat) : Prop :=
  match at_ s a with
  | PGetScan _ i b => gscan p s a i b
  | PGetCas _ b => gscan p s a (p_slots p) b
  | PGetCopy i => In (sval (slots s i)) (values_during a (log s))
  | PGetUnref _ | PGetUnlock => bad a = false -> forall v, ret s a = COk v -> In v (values_during a (log s))
  | _ => True
  end.

Lemma vd_frame a s s' v : frame a s s' -> In v (values_during a (log s)) -> In v (values_during a (log s')).
Proof.
  intros F H. destruct (f_log _ _ _ F) as [->|[e [-> O]]]; [exact H|]. apply vd_mono; [now apply other_calls|exact H].
Qed.

Lemma gscan_frame p l s s' a i b : kinv p s -> step p l s = Some s' -> frame a s s' -> calm s l -> searching (at_ s a) = true ->
  gscan p s a i b -> gscan p s' a i b.
Proof.
  intros K H F C Se [k [t [G1 [G2 [G3 [G4 G5]]]]]].
  assert (Q : like s s' -> gscan p s' a i b).
  { intros Lk. exists k, t. destruct (Lk k) as [A _]. repeat split; auto; [congruence|].
    intros j u R T. destruct (Lk j) as [B ->]. apply (vd_frame a s s'); [exact F|]. apply (G4 j u); congruence. }
  destruct l as [c o|c|j|j|c x|c d];
    try (destruct (fun X => env_like p _ s s' X H) as [Lk _]; [intros; discriminate|]; exact (Q Lk)).
  unfold step in H. destruct (dead s); [discriminate|].
  destruct (move_effect _ _ _ _ H) as [Lk _ _ _ _|j B Al Es Ec Lg Sg|j v Sg Sg' Es Ec Lg|j Sg Sg' Es Ec Lg|j u Sg Sg' Es Ec Lg|j Sg Sg' Es Ec Lg].
  - exact (Q Lk).
  - specialize (C c eq_refl B a). congruence.
  - pose proof (stg_slot _ _ Sg) as So. cbn in So. destruct (k_own _ _ K c j So) as [_ W].
    exists k, t. assert (k <> j) by congruence. rewrite Es, Lg. repeat split; auto; [now rewrite fupd_neq|].
    intros x u R T. destruct (Nat.eq_dec x j) as [->|N]; [rewrite fupd_eq in R; cbn in R; congruence|rewrite fupd_neq in * by exact N; eauto].
  - exists k, t. rewrite Es, Lg. auto.
  - exists k, t. rewrite Es, Lg. auto.
  - pose proof (stg_slot _ _ Sg) as So. cbn in So. destruct (k_own _ _ K c j So) as [_ W].
    exists k, t. assert (k <> j) by congruence. rewrite Es, Lg. repeat split; auto; [now rewrite fupd_neq|].
    intros x u R T. destruct (Nat.eq_dec x j) as [->|N].
    + rewrite fupd_eq. cbn [sval]. apply vd_sent.
    + rewrite fupd_neq in * by exact N. apply vd_mono; [reflexivity|eauto].
Qed.

Lemma scan_other p bad l s s' a : kinv p s -> step p l s = Some s' -> actor l <> Some a -> calm s l -> jscan p bad s a -> jscan p bad s' a.
Proof.
  intros K H N C J. pose proof (step_frame _ _ _ _ _ N H) as F. unfold jscan in *. rewrite (f_at _ _ _ F), (f_ret _ _ _ F).
  destruct (at_ s a) eqn:E; auto.
  - eapply gscan_frame; eauto. rewrite E. reflexivity.
  - eapply gscan_frame; eauto. rewrite E. reflexivity.
  - rewrite (step_val p l s s' i H); [now apply (vd_frame a s s')|].
    intros b -> Hb. destruct (k_own _ _ K b i Hb) as [_ W].
    assert (G : got (at_ s a) = Some i) by (rewrite E; reflexivity). apply (k_got _ _ K) in G.
    destruct (k_ref _ _ K i) as [[t T]|[_ T]]; congruence.
  - intros B v R. apply (vd_frame a s s'); auto.
  - intros B v R. apply (vd_frame a s s'); auto.
Qed.

Lemma better_ge x i b t : sst x = SRdy t -> (1 <= t)%N -> exists j u r, better x i b = Some (j, u, r) /\ (t <= u)%N.
Proof.
  intros R T. unfold better. rewrite R. destruct b as [[[j u] r]|].
  - destruct (N.ltb_spec u t); [exists i, t, (refs x); split; [reflexivity|lia]|exists j, u, r; split; [reflexivity|lia]].
  - destruct (N.ltb_spec 0 t); [|lia]. exists i, t, (refs x). split; [reflexivity|lia].
Qed.

Lemma better_mono x i b t : (exists j u r, b = Some (j, u, r) /\ (t <= u)%N) -> exists j u r, better x i b = Some (j, u, r) /\ (t <= u)%N.
Proof.
  intros [j [u [r [-> T]]]]. unfold better. destruct (sst x) as [| |w]; [exists j, u, r; auto|exists j, u, r; auto|].
  destruct (N.ltb_spec u w); [exists i, w, (refs x); split; [reflexivity|lia]|exists j, u, r; auto].
Qed.

Lemma gscan_same p s s' a i b : slots s' = slots s -> log s' = log s -> gscan p s a i b -> gscan p s' a i b.
Proof. intros E L. unfold gscan. now rewrite E, L. Qed.

Lemma scan_own p bad s s' a : finv s -> jcore p s -> move p a s = Some s' -> jscan p bad s a -> jscan p bad s' a.
Proof.
  intros F J H G. specialize (F a). unfold jscan in G. unfold move in H. destruct (at_ s a) eqn:E; try discriminate.
  - destruct (mset s); [discriminate|]. injection H as <-. unfold jscan; st_cbn; now rewrite fupd_eq.
  - injection H as <-. unfold jscan; st_cbn; now rewrite fupd_eq.
  - destruct (ret s a); injection H as <-; unfold jscan; st_cbn; rewrite ?fupd_eq, ?E; exact I.
  - destruct (ret s a); injection H as <-; unfold jscan; st_cbn; rewrite ?fupd_eq, ?E; exact I.
  - destruct n as [|i|i|i t|i]; cbn [send_step] in H; [destruct (alloc p s) as [i|]|..]; injection H as <-; unfold jscan; st_cbn; now rewrite fupd_eq.
  - injection H as <-. unfold jscan; st_cbn; now rewrite fupd_eq.
  - destruct (mget s); [discriminate|]. injection H as <-. unfold jscan; st_cbn; rewrite fupd_eq.
    destruct J as [[l [t [L [T _]]]] _]. exists l, t. st_cbn. destruct L as [L1 L2 L3 L4]. repeat split; auto; [|lia].
    intros j u R Tu. destruct (L4 j u R) as [A B]. rewrite (B ltac:(lia)), L3.
    destruct (asked a (log s)) as [o|] eqn:Q; [|discriminate]. eapply vd_current; eauto.
  - destruct (Nat.ltb_spec i (p_slots p)) as [Hi|Hi].
    + injection H as <-. unfold jscan; st_cbn; rewrite fupd_eq. apply (gscan_same p s); [reflexivity|reflexivity|].
      destruct G as [l [t [G1 [G2 [G3 [G4 G5]]]]]]. exists l, t. repeat split; auto. intros Hl.
      destruct (Nat.eq_dec l i) as [->|N]; [now apply better_ge|apply better_mono, G5; lia].
    + destruct b as [x|]; injection H as <-; unfold jscan; st_cbn; rewrite fupd_eq.
      * apply (gscan_same p s); [reflexivity|reflexivity|].
        destruct G as [l [t [G1 [G2 [G3 [G4 G5]]]]]]. exists l, t. repeat split; auto. intros Hl. apply G5. lia.
      * intros _ v R. rewrite fupd_eq in R. discriminate.
  - destruct b as [[[j u] r]|]; [|discriminate]. destruct G as [l [t [G1 [G2 [G3 [G4 G5]]]]]].
    destruct (same (slots s j) u r) eqn:Sm; [|destruct (Nat.ltb _ _)]; injection H as <-; unfold jscan; st_cbn; rewrite fupd_eq.
    + rewrite fupd_eq. cbn [sval]. destruct (G5 G1) as [j' [u' [r' [X T]]]]. injection X as <- <- <-.
      apply (G4 j u); [eapply same_rdy; eauto|exact T].
    + exists l, t. st_cbn. repeat split; auto. lia.
    + intros _ v R. rewrite fupd_eq in R. discriminate.
  - injection H as <-. unfold jscan; st_cbn; rewrite fupd_eq. intros _ v R. rewrite fupd_eq in R. injection R as <-. exact G.
  - injection H as <-. unfold jscan; st_cbn; rewrite fupd_eq. exact G.
  - injection H as <-. unfold jscan; st_cbn; now rewrite fupd_eq.
  - destruct n as [|i|i|i t|i]; cbn [send_step] in H; [destruct (alloc p s) as [i|]|..]; injection H as <-; unfold jscan; st_cbn; now rewrite fupd_eq.
  - injection H as <-. unfold jscan; st_cbn; now rewrite fupd_eq.
Qed.

Record jinv (p : par) (bad : nat -> bool) (s : st) : Prop := {
  i_k : kinv p s; i_f : finv s; i_c : jcore p s;
  i_s : forall a, jscan p bad s a;
  i_log : forall l1 a v l2, log s = l1 ++ ERet a (COk v) :: l2 -> bad a = false -> asked a l2 = Some OGet -> In v (values_during a l2)
}.

Definition orderly (p : par) (bad : nat -> bool) (s : st) (l : label) : Prop :=
  fair bad l /\ one_sender s l /\ calm s l /\ room p s l.

Lemma step_j p bad l s s' : jinv p bad s -> orderly p bad s l -> step p l s = Some s' -> jinv p bad s'.
Proof.
  intros [K F C S1 L] [Fa [O [Ca R]]] H. constructor; [eauto using step_k|eauto using step_f|eapply core_step; eauto| |].
  - intros a. destruct (actor_dec l a) as [B|B]; [|eapply scan_other; eauto].
    unfold step in H. destruct (dead s); [discriminate|]. destruct l as [b o|b|i|i|b x|b d]; cbn in B, Fa; try discriminate; injection B as ->.
    + destruct (at_ s a) eqn:E; try discriminate. injection H as <-. unfold jscan. destruct o; cbn [begin]; st_cbn; now rewrite fupd_eq.
    + eapply scan_own; eauto.
    + injection H as <-. specialize (S1 a). unfold jscan in *. st_cbn. destruct (at_ s a); auto; congruence.
    + injection H as <-. specialize (S1 a). exact S1.
  - intros l1 a v l2 E Ba Q. destruct (step_log _ _ _ _ H) as [Lg|[[e [Lg Ne]]|[b [-> Lg]]]]; rewrite Lg in E.
    + eauto.
    + destruct (split_cons _ _ _ _ _ E) as [[_ [X _]]|[l1' [_ X]]]; [now destruct (Ne a (COk v))|eauto].
    + destruct (split_cons _ _ _ _ _ E) as [[_ [X Y]]|[l1' [_ X]]]; [|eauto].
      injection X as -> X. subst l2. unfold step in H. destruct (dead s); [discriminate|].
      pose proof (get_answer _ _ _ _ F H Lg Q) as U. specialize (S1 a). unfold jscan in S1. rewrite U in S1. auto.
Qed.

Lemma start_j p bad v0 : 1 <= p_slots p -> jinv p bad (start v0).
Proof.
  intros Hp. constructor; [now apply start_k|apply start_f| |intros a; exact I|].
  - constructor; [|intros a b Ha; discriminate]. exists 0, 1%N. split; [|split; [lia|split]].
    + constructor; [exact Hp|reflexivity|reflexivity|]. cbn. unfold fupd. intros i u.
      destruct (Nat.eqb_spec i 0) as [->|N]; cbn; [|discriminate]. intros X. injection X as <-. split; [lia|reflexivity].
    + intros a i u X. discriminate.
    + left. split; [reflexivity|]. intros a i X. discriminate.
  - intros l1 a v l2 E. cbn in E. destruct (split_cons _ _ _ _ _ E) as [[_ [X _]]|[l1' [_ X]]]; [discriminate|]. destruct l1'; discriminate.
Qed.

Lemma run_j p bad : forall ls s s', jinv p bad s -> always p (orderly p bad) ls s -> run p ls s = Some s' -> jinv p bad s'.
Proof.
  induction ls as [|l r IH]; cbn [run always]; intros s s' K G H; [now injection H as <-|].
  destruct G as [G1 G2]. destruct (step p l s) eqn:E; [|discriminate].
  apply (IH s0); auto. eapply step_j; eauto.
Qed.

(** under the same conditions a Set or an Update never fails *)
Lemma oldest_some f : forall l best i, In i l -> (sst (f i) = SInv \/ (exists t, sst (f i) = SRdy t) /\ refs (f i) = 0) -> oldest f l best <> None.
Proof.
  assert (A : forall l x, oldest f l (Some x) <> None).
  { induction l as [|j r IH]; intros x; cbn [oldest]; [discriminate|]. destruct (sst (f j)); [discriminate|apply IH|].
    destruct (_ && _); apply IH. }
  induction l as [|j r IH]; intros best i Hi H; [destruct Hi|]. destruct Hi as [->|Hi]; cbn [oldest].
  - destruct H as [->|[[t ->] R]]; [discriminate|]. rewrite R. destruct best as [[b u]|]; cbn; [|apply A]. destruct (N.ltb t u); apply A.
  - destruct (sst (f j)); [discriminate|eauto|]. destruct (_ && _); eauto.
Qed.

Lemma alloc_some p s : kinv p s -> (forall a, sending (at_ s a) = false) -> held p s + 3 <= p_slots p -> alloc p s <> None.
Proof.
  intros K O Rm. destruct (free_slot p s 0 K O Rm) as [k [K1 [_ Rk]]]. apply (oldest_some _ _ _ k); [apply in_seq; lia|].
  destruct (sst (slots s k)) as [| |t] eqn:E; [now left| |right; split; [now exists t|exact Rk]].
  destruct (k_wr _ _ K k E) as [a Ha]. rewrite (sending_slot _ (O a)) in Ha. discriminate.
Qed.

Definition noerr (s : st) (a : nat) : Prop :=
  match at_ s a with PSetUnlock | PUpdRet => exists v, ret s a = COk v | _ => True end.

Record ninv (p : par) (bad : nat -> bool) (s : st) : Prop := {
  n_a : ainv p bad s;
  n_ok : forall a, bad a = false -> noerr s a;
  n_log : forall l1 a e l2, log s = l1 ++ ERet a (CErr e) :: l2 -> bad a = false -> asked a l2 = Some OGet
}.

Lemma noerr_own p s s' a : finv s -> kinv p s -> aok p s a -> noerr s a -> one_sender s (LMove a) -> room p s (LMove a) -> move p a s = Some s' -> noerr s' a.
Proof.
  intros F K A Ne O R H. specialize (F a). specialize (O a eq_refl). specialize (R a eq_refl). unfold aok in A. unfold move in H.
  destruct (at_ s a) eqn:E; try discriminate; (destruct (asked a (log s)) as [o|] eqn:Q; [|discriminate]); destruct o; try (exfalso; exact F).
  - destruct (mset s); [discriminate|]. injection H as <-. unfold noerr; st_cbn; now rewrite fupd_eq.
  - injection H as <-. unfold noerr; st_cbn; now rewrite fupd_eq.
  - destruct (ret s a); injection H as <-; unfold noerr; st_cbn; rewrite ?fupd_eq, ?E; exact I.
  - destruct (ret s a); injection H as <-; unfold noerr; st_cbn; rewrite ?fupd_eq, ?E; exact I.
  - destruct n as [|i|i|i t|i]; cbn [send_step] in H; [destruct (alloc p s) as [i|] eqn:Al|..]; injection H as <-; unfold noerr; st_cbn; rewrite fupd_eq; auto.
    + exfalso. apply (alloc_some p s K); auto.
    + destruct A as [A _]. eauto.
  - injection H as <-. unfold noerr; st_cbn; now rewrite fupd_eq.
  - destruct (mget s); [discriminate|]. injection H as <-. unfold noerr; st_cbn; now rewrite fupd_eq.
  - destruct (Nat.ltb _ (p_slots p)); [|destruct b]; injection H as <-; unfold noerr; st_cbn; now rewrite fupd_eq.
  - destruct b as [[[j t] r]|]; [|discriminate]. destruct (same _ _ _); [|destruct (Nat.ltb _ _)]; injection H as <-; unfold noerr; st_cbn; now rewrite fupd_eq.
  - injection H as <-. unfold noerr; st_cbn; now rewrite fupd_eq.
  - injection H as <-. unfold noerr; st_cbn; now rewrite fupd_eq.
  - injection H as <-. unfold noerr; st_cbn; now rewrite fupd_eq.
  - destruct n as [|i|i|i t|i]; cbn [send_step] in H; [destruct (alloc p s) as [i|] eqn:Al|..]; injection H as <-; unfold noerr; st_cbn; rewrite fupd_eq; auto.
    + exfalso. apply (alloc_some p s K); auto.
    + rewrite fupd_eq. eauto.
  - injection H as <-. unfold noerr; st_cbn; now rewrite fupd_eq.
Qed.

(** who answers *)
Lemma answer_at p a s s' : finv s -> move p a s = Some s' -> log s' = ERet a (ret s a) :: log s ->
  at_ s a = PSetUnlock \/ at_ s a = PUpdRet \/ asked a (log s) = Some OGet.
Proof.
  intros F H Lg. specialize (F a).
  assert (N : forall e : ev, log s <> e :: log s) by (intros e X; apply (f_equal (@length ev)) in X; cbn in X; lia).
  unfold move in H. destruct (at_ s a) eqn:E; try discriminate; auto; (destruct (asked a (log s)) as [o|] eqn:Q; [|discriminate]); destruct o; try (exfalso; exact F); auto.
  - destruct (mset s); [discriminate|]. injection H as <-. st_cbn. now destruct (N _ Lg).
  - injection H as <-. st_cbn. now destruct (N _ Lg).
  - destruct (ret s a); injection H as <-; st_cbn; now destruct (N _ Lg).
  - destruct (ret s a); injection H as <-; st_cbn; now destruct (N _ Lg).
  - destruct n as [|i|i|i t|i]; cbn [send_step] in H; [destruct (alloc p s) as [i|] eqn:Al|..]; injection H as <-; st_cbn; try (now destruct (N _ Lg)); discriminate.
  - destruct n as [|i|i|i t|i]; cbn [send_step] in H; [destruct (alloc p s) as [i|] eqn:Al|..]; injection H as <-; st_cbn; try (now destruct (N _ Lg)); discriminate.
Qed.

Lemma step_n p bad l s s' : ninv p bad s -> orderly p bad s l -> step p l s = Some s' -> ninv p bad s'.
Proof.
  intros [A Ne L] [Fa [O [Ca R]]] H. pose proof A as [K F A' _]. constructor; [eauto using step_a| |].
  - intros a Ba. destruct (actor_dec l a) as [B|B].
    + unfold step in H. destruct (dead s); [discriminate|]. destruct l as [b o|b|i|i|b x|b d]; cbn in B, Fa; try discriminate; injection B as ->; try congruence.
      * destruct (at_ s a) eqn:E; try discriminate. injection H as <-. unfold noerr. destruct o; cbn [begin]; st_cbn; now rewrite fupd_eq.
      * eapply noerr_own; eauto.
    + pose proof (step_frame _ _ _ _ _ B H) as Fr. unfold noerr. rewrite (f_at _ _ _ Fr), (f_ret _ _ _ Fr). now apply Ne.
  - intros l1 a e l2 E Ba. destruct (step_log _ _ _ _ H) as [Lg|[[x [Lg Nx]]|[b [-> Lg]]]]; rewrite Lg in E.
    + eauto.
    + destruct (split_cons _ _ _ _ _ E) as [[_ [X _]]|[l1' [_ X]]]; [now destruct (Nx a (CErr e))|eauto].
    + destruct (split_cons _ _ _ _ _ E) as [[_ [X Y]]|[l1' [_ X]]]; [|eauto].
      injection X as -> X. subst l2. unfold step in H. destruct (dead s); [discriminate|].
      specialize (Ne a Ba). unfold noerr in Ne. destruct (answer_at _ _ _ _ F H Lg) as [U|[U|U]]; [| |exact U]; rewrite U in Ne; destruct Ne as [v V]; congruence.
Qed.

Lemma run_n p bad : forall ls s s', ninv p bad s -> always p (orderly p bad) ls s -> run p ls s = Some s' -> ninv p bad s'.
Proof.
  induction ls as [|l r IH]; cbn [run always]; intros s s' K G H; [now injection H as <-|].
  destruct G as [G1 G2]. destruct (step p l s) eqn:E; [|discriminate].
  apply (IH s0); auto. eapply step_n; eauto.
Qed.

Lemma start_n p bad v0 : 1 <= p_slots p -> ninv p bad (start v0).
Proof.
  intros Hp. constructor; [now apply start_a|intros a _; exact I|].
  intros l1 a v l2 E. cbn in E. destruct (split_cons _ _ _ _ _ E) as [[_ [X _]]|[l1' [_ X]]]; [discriminate|]. destruct l1'; discriminate.
Qed.
