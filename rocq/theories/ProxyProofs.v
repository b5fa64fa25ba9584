From Verif Require Import ProxyModel ProxySpec.
Local Open Scope N_scope.

Record J (s : pst) (v : view) : Prop := mkJ {
  j_dead : dead s = false;
  j_state : pstate s = documented v;
  j_avail : avail s = v_avail v;
  j_flag : flag s = v_sub v;
  j_nh : nh s = v_sets v;
  j_pend : forall p, pend s = Some p -> cur s = Some p /\ running s = O;
  j_pendreg : forall p q r, pend s = Some p -> reg s = Some (q, r) -> q <> p;
  j_subpend : pstate s = SSub -> pend s = None;
  j_notreg : pstate s = SNot -> reg s = None;
  j_regpid : pstate s = SSub -> forall h q, reg s = Some (h, q) -> q = spid s;
  j_reglt : forall h q, reg s = Some (h, q) -> (h < nh s)%nat;
  j_handler : forall h, v_handler v = Some h ->
     cur s = Some h /\ scope s = Some h /\ (pend s = Some h \/ exists q, reg s = Some (h, q));
  j_used : tused s <= tmax s;
  j_max : pstate s <> SNot -> 1 <= pmax s <= 255 /\ tmax s = pmax s;
  j_nused : pstate s = SNot -> tused s = 0;
  j_curlt : forall h, cur s = Some h -> (h < nh s)%nat
}.

Lemma J_init pid0 : J (pinit pid0) (mkV false true pid0 None 0).
Proof. constructor; cbn; try reflexivity; try discriminate; try lia; intros; discriminate || (exfalso; congruence) || lia. Qed.

Ltac bust := repeat match goal with
  | H : (_, _) = (_, _) |- _ => injection H as ? ?; subst
  | H : _ /\ _ |- _ => destruct H
  | H : Some _ = Some _ |- _ => injection H as ?; subst
  | H : Some _ = None |- _ => discriminate H
  | H : None = Some _ |- _ => discriminate H
  | H : context [if ?c then _ else _] |- _ => destruct c eqn:?; cbn in H
  end.

Ltac fin := cbn in *; intros; bust; subst; cbn in *; try congruence; try lia; try discriminate; try tauto; eauto.

Ltac ev := cbv beta iota zeta delta [sm_subscribed sm_unsubscribe sm_set sm_unset sm_stop sm_reoffer mgr_register
  mgr_unregister mgr_reregister p_state p_max p_avail p_spid p_pend p_reg p_cur p_scope p_nh p_flag p_track p_running
  pstate pmax avail spid pend reg cur scope nh flag tmax tused running dead].
Lemma J_step s v o s' x :
  J s v -> pstep s o = (s', x) -> dead s' = false -> J s' (view_step v (o, x)).
Proof.
  intros HJ E HD. destruct HJ as [j1 j2 j3 j4 j5 j6 j7 j8 j9 j10 j11 j12 j13 j14 j15 j16].
  destruct s as [st mx av sp pe re cu sc n fl tm tu ru de]. destruct v as [vs va vp vh vn].
  cbn in j1, j2, j3, j4, j5, j6, j7, j8, j9, j10, j11, j12, j13, j14, j15, j16. subst de av fl n.
  unfold pstep in E. cbn [dead] in E.
  destruct o as [k e|c| |c| |pid|k d| |pid|]; cbn [pstate flag cur running tmax tused reg scope pmax] in E.
  - (* Subscribe *)
    unfold documented in j2. cbn in j2. destruct vs.
    + assert (Hn : st <> SNot) by (destruct va; subst; discriminate).
      assert (E' : (if k =? mx then (p_flag (mkP st mx va sp pe re cu sc vn true tm tu ru false) true, ROk)
        else (mkP st mx va sp pe re cu sc vn true tm tu ru false, RErr EMaxSampleCountNotRealizable)) = (s', x)).
      { destruct st; [congruence|exact E|exact E]. }
      clear E. destruct (k =? mx); injection E' as <- <-; constructor; cbn; auto.
    + subst st. destruct (255 <? k) eqn:K; [injection E as <- <-; discriminate HD|].
      destruct e.
      * destruct (k =? 0) eqn:K0; [injection E as <- <-; discriminate HD|]. injection E as <- <-.
        apply N.ltb_ge in K. apply N.eqb_neq in K0. specialize (j9 eq_refl). subst re.
        ev.
        destruct pe as [h|], va; constructor; fin.
        -- apply j16. apply (j6 _ eq_refl).
        -- destruct (j12 _ eq_refl) as (A & B & [C|[q C]]); bust; split; [|split]; eauto.
      * injection E as <- <-. constructor; fin.
      * injection E as <- <-. constructor; fin.
  - destruct (negb (possible _ c)) eqn:P; [injection E as <- <-; constructor; cbn; auto|].
    destruct vs; cbn [negb] in E.
    + unfold documented in j2; cbn in j2.
      assert (Hn : st <> SNot) by (destruct va; subst; discriminate).
      destruct (j14 Hn) as [M1 M2].
      destruct (expire _ c) as [s1|] eqn:X.
      2: { assert (s' = mkP st mx va sp pe re cu sc vn true tm tu ru false /\ x = RBlocked) as [-> ->].
           { destruct st; [congruence| |]; injection E as <- <-; auto. }
           constructor; cbn; auto. }
      assert (E2 : (let s2 := p_flag (sm_unsubscribe s1) false in if 0 <? tu then (p_dead s2, RTerm) else (s2, ROk)) = (s', x)).
      { destruct st; [congruence|exact E|exact E]. }
      clear E. cbn zeta in E2. destruct (0 <? tu) eqn:TU; [injection E2 as <- <-; discriminate HD|]. injection E2 as <- <-.
      apply N.ltb_ge in TU.
      assert (S1 : exists sc', s1 = mkP st mx va sp pe re cu sc' vn true tm tu ru false).
      { destruct c; cbn in X; [destruct ru; [|discriminate]| |]; injection X as <-; eexists; reflexivity. }
      destruct S1 as [sc' ->]. unfold sm_unsubscribe, mgr_unregister. cbn [pstate].
      assert (F : forall A (a b : A), match st with SNot => a | _ => b end = b) by (destruct st; [congruence| |]; reflexivity).
      rewrite F. constructor; fin.
    + unfold documented in j2; cbn in j2. injection E as <- <-. constructor; cbn; auto.
  - destruct ru; [|injection E as <- <-; constructor; cbn; auto]. injection E as <- <-.
    ev.
    unfold documented in j2; cbn in j2.
    destruct st; constructor; fin.
    all: try (specialize (j11 _ _ eq_refl); lia).
    all: specialize (j8 eq_refl); congruence.
  - destruct (negb (possible _ c)) eqn:P; [injection E as <- <-; constructor; cbn; auto; try (intros; discriminate)|].
    destruct cu as [h|]; [|injection E as <- <-; constructor; cbn; auto; try (intros; discriminate)].
    destruct (expire _ c) as [s1|] eqn:X.
    2: { injection E as <- <-; constructor; cbn; auto. }
    injection E as <- <-.
    assert (S1 : exists sc', s1 = mkP st mx va sp pe re (Some h) sc' vn vs tm tu ru false).
    { destruct c; cbn in X; [destruct ru; [|discriminate]| |]; injection X as <-; eexists; reflexivity. }
    destruct S1 as [sc' ->]. ev.
    unfold documented in j2; cbn in j2.
    destruct st; constructor; fin.
    specialize (j8 eq_refl). discriminate.
  - destruct (sm_stop _) as [s1|] eqn:X; [|injection E as <- <-; discriminate HD]. injection E as <- <-.
    unfold sm_stop in X. cbn in X. unfold documented in j2; cbn in j2.
    destruct vs, va; subst st; try discriminate X; injection X as <-; constructor; fin.
    apply j14. discriminate.
  - injection E as <- <-. ev. unfold documented in j2; cbn in j2.
    destruct vs, va; subst st.
    + constructor; fin.
    + ev.
      destruct pe as [h|]; [|destruct re as [[h q]|]]; constructor; fin.
      all: try (apply j14; discriminate).
      * apply j16. apply (j6 _ eq_refl).
      * destruct (j12 _ eq_refl) as (A & B & _). destruct (j6 _ eq_refl). split; [|split]; auto. right. exists pid. congruence.
      * destruct (j12 _ eq_refl) as (A & B & [C|[r C]]); bust. split; [|split]; eauto.
    + constructor; fin.
    + constructor; fin.
  - destruct (N.min k (tm - tu) =? 0) eqn:G; [injection E as <- <-; constructor; cbn; auto|].
    unfold documented in j2; cbn in j2.
    destruct st; injection E as <- <-; constructor; fin.
  - injection E as <- <-. constructor; fin.
  - destruct re as [[h q]|], cu as [h'|], sc as [h''|]; try (injection E as <- <-; constructor; cbn; auto; fail).
    destruct ((q =? pid) && (h =? h')%nat && (h =? h'')%nat) eqn:G; injection E as <- <-; [|constructor; cbn; auto; fail].
    apply andb_prop in G. destruct G as [G G3]. apply andb_prop in G. destruct G as [G1 G2].
    apply Nat.eqb_eq in G2, G3. subst h' h''. constructor; cbn; auto.
    intros p ->. destruct (j6 _ eq_refl) as [A B]. injection A as ->. destruct (j7 p p q eq_refl eq_refl eq_refl).
  - injection E as <- <-. constructor; fin. destruct (j6 _ eq_refl) as [A ->]. auto.
Qed.

Lemma dead_step s o : dead s = true -> pstep s o = (s, RTerm).
Proof. intros H. unfold pstep. rewrite H. reflexivity. Qed.

Lemma dead_run os : forall s, dead s = true -> dead (fst (prun s os)) = true.
Proof.
  induction os as [|o os IH]; intros s H; cbn [prun]; [exact H|].
  rewrite (dead_step s o H). specialize (IH s H). destruct (prun s os) as [s2 h]. exact IH.
Qed.

Lemma J_run os : forall s v s' h,
  J s v -> prun s os = (s', h) -> dead s' = false -> J s' (fold_left view_step h v).
Proof.
  induction os as [|o os IH]; intros s v s' h HJ E HD; cbn [prun] in E.
  - injection E as <- <-. exact HJ.
  - destruct (pstep s o) as [s1 x] eqn:E1. destruct (prun s1 os) as [s2 h2] eqn:E2. injection E as <- <-.
    cbn [fold_left]. eapply IH; eauto. eapply J_step; eauto.
    destruct (dead s1) eqn:D; [|reflexivity]. pose proof (dead_run os s1 D) as X. rewrite E2 in X. cbn in X. congruence.
Qed.

Lemma J_reach pid0 os s h : prun (pinit pid0) os = (s, h) -> dead s = false -> J s (look pid0 h).
Proof. intros. eapply J_run; eauto. apply J_init. Qed.

(** a handler that is not in effect is not reachable for a notification *)
Definition K (s : pst) (v : view) : Prop :=
  (forall h, v_handler v = Some h -> cur s = Some h) /\
  (v_handler v = None -> cur s = None \/ scope s = None \/ (pend s = None /\ reg s = None)).

Lemma K_init pid0 : K (pinit pid0) (mkV false true pid0 None 0).
Proof. split; [discriminate|]. left. reflexivity. Qed.

Lemma K_step s v o s' x :
  J s v -> K s v -> o <> OUnsubscribe InOther -> pstep s o = (s', x) -> dead s' = false -> K s' (view_step v (o, x)).
Proof.
  intros HJ [K1 K2] HO E HD. destruct HJ as [j1 j2 j3 j4 j5 j6 j7 j8 j9 j10 j11 j12 j13 j14 j15 j16].
  destruct s as [st mx av sp pe re cu sc n fl tm tu ru de]. destruct v as [vs va vp vh vn].
  cbn in j1, j2, j3, j4, j5, j6, j7, j8, j9, j10, j11, j12, j13, j14, j15, j16, K1, K2. subst de av fl n.
  unfold documented in j2; cbn in j2.
  unfold pstep in E. cbn [dead] in E.
  destruct o as [k e|c| |c| |pid|k d| |pid|]; cbn [pstate flag cur running tmax tused reg scope pmax] in E.
  - destruct vs.
    + assert (E' : (if k =? mx then (p_flag (mkP st mx va sp pe re cu sc vn true tm tu ru false) true, ROk)
        else (mkP st mx va sp pe re cu sc vn true tm tu ru false, RErr EMaxSampleCountNotRealizable)) = (s', x)).
      { destruct va; subst st; exact E. }
      clear E. destruct (k =? mx); injection E' as <- <-; split; cbn; auto.
    + subst st. destruct (255 <? k); [injection E as <- <-; discriminate HD|].
      destruct e; try (injection E as <- <-; split; cbn; auto; fail).
      destruct (k =? 0); [injection E as <- <-; discriminate HD|]. injection E as <- <-.
      ev. destruct pe as [h|], va; split; cbn; auto; intros X; destruct (K2 X) as [Y|[Y|[Y Z]]]; auto; discriminate.
  - destruct (negb (possible _ c)) eqn:P; [injection E as <- <-; split; cbn; auto|].
    destruct vs; cbn [negb] in E.
    2: { injection E as <- <-. split; cbn; auto. }
    assert (Hn : st <> SNot) by (destruct va; subst; discriminate).
    destruct (expire _ c) as [s1|] eqn:X.
    2: { assert (s' = mkP st mx va sp pe re cu sc vn true tm tu ru false /\ x = RBlocked) as [-> ->].
         { destruct st; [congruence| |]; injection E as <- <-; auto. } split; cbn; auto. }
    assert (E2 : (let s2 := p_flag (sm_unsubscribe s1) false in if 0 <? tu then (p_dead s2, RTerm) else (s2, ROk)) = (s', x)).
    { destruct st; [congruence|exact E|exact E]. }
    clear E. cbn zeta in E2. destruct (0 <? tu); [injection E2 as <- <-; discriminate HD|]. injection E2 as <- <-.
    split; [discriminate|]. intros _.
    destruct c; [| |congruence].
    + cbn in X. destruct ru; [|discriminate]. injection X as <-. right; left. ev. destruct st; [congruence| |]; reflexivity.
    + cbn in X. injection X as <-. right; right. ev.
      assert (pe = None).
      { destruct pe as [p|]; [|reflexivity]. destruct (j6 p eq_refl) as [_ ->]. cbn in P. discriminate. }
      subst pe. destruct st; [congruence| |]; cbn; auto.
  - destruct ru; [|injection E as <- <-; split; cbn; auto]. injection E as <- <-.
    split; [|discriminate]. cbn. intros h [= <-]. ev. destruct st; reflexivity.
  - destruct (negb (possible _ c)) eqn:P; [injection E as <- <-; split; cbn; auto|].
    destruct cu as [h|]; [|injection E as <- <-; split; cbn; auto; discriminate].
    destruct (expire _ c) as [s1|] eqn:X; [|injection E as <- <-; split; cbn; auto].
    injection E as <- <-. split; [discriminate|]. intros _. left.
    assert (S1 : exists sc', s1 = mkP st mx va sp pe re (Some h) sc' vn vs tm tu ru false).
    { destruct c; cbn in X; [destruct ru; [|discriminate]| |]; injection X as <-; eexists; reflexivity. }
    destruct S1 as [sc' ->]. ev. destruct st; reflexivity.
  - destruct (sm_stop _) as [s1|] eqn:X; [|injection E as <- <-; discriminate HD]. injection E as <- <-.
    unfold sm_stop in X. cbn in X. destruct st; try discriminate X; injection X as <-; split; cbn; auto.
  - injection E as <- <-. ev. destruct st; [split; cbn; auto| |split; cbn; auto].
    destruct pe as [h|]; [|destruct re as [[h q]|]]; split; cbn; auto; intros Y; destruct (K2 Y) as [Z|[Z|[Z W]]]; auto; discriminate.
  - destruct (N.min k (tm - tu) =? 0); [injection E as <- <-; split; cbn; auto|].
    destruct st; injection E as <- <-; split; cbn; auto.
  - injection E as <- <-. split; cbn; auto.
  - destruct re as [[h q]|], cu as [h'|], sc as [h''|]; try (injection E as <- <-; split; cbn; auto; fail).
    destruct ((q =? pid) && (h =? h')%nat && (h =? h'')%nat); injection E as <- <-; split; cbn; auto.
  - injection E as <- <-. split; cbn; auto.
Qed.

Lemma K_run os : forall s v s' h,
  J s v -> K s v -> no_foreign_unsubscribe os -> prun s os = (s', h) -> dead s' = false -> K s' (fold_left view_step h v).
Proof.
  induction os as [|o os IH]; intros s v s' h HJ HK HN E HD; cbn [prun] in E.
  - injection E as <- <-. exact HK.
  - destruct (pstep s o) as [s1 x] eqn:E1. destruct (prun s1 os) as [s2 h2] eqn:E2. injection E as <- <-.
    assert (D : dead s1 = false).
    { destruct (dead s1) eqn:D; [|reflexivity]. pose proof (dead_run os s1 D) as X. rewrite E2 in X. cbn in X. congruence. }
    cbn [fold_left]. eapply IH; eauto.
    + eapply J_step; eauto.
    + eapply K_step; eauto. intros ->. apply HN. left. reflexivity.
    + intros X. apply HN. right. exact X.
Qed.

(** the process the registration is for *)
Lemma spid_step s v o s' x :
  J s v -> spid s = v_pid v ->
  (match (o, x) with (OReoffer pid, ROk) => v_avail v = true -> pid = v_pid v | _ => True end) ->
  pstep s o = (s', x) -> dead s' = false -> spid s' = v_pid (view_step v (o, x)).
Proof.
  intros HJ HS HO E HD. pose proof (j_state _ _ HJ) as HST. pose proof (j_dead _ _ HJ) as Hd. clear HJ.
  destruct s as [st mx av sp pe re cu sc n fl tm tu ru de]. destruct v as [vs va vp vh vn].
  cbn in HS, HST, Hd. subst de sp.
  unfold documented in HST; cbn in HST.
  unfold pstep in E. cbn [dead] in E.
  destruct o as [k e|c| |c| |pid|k d| |pid|]; cbn [pstate flag cur running tmax tused reg scope pmax] in E.
  - destruct vs, va; subst st;
    repeat match type of E with
    | context [if ?c then _ else _] => destruct c
    | context [match e with _ => _ end] => destruct e
    end; injection E as <- <-; ev; try reflexivity; destruct pe, av; reflexivity.
  - destruct c, fl, st, ru; cbn in E;
    repeat match type of E with context [if ?c then _ else _] => destruct c end;
    injection E as <- <-; reflexivity.
  - destruct ru; injection E as <- <-; [|reflexivity]. ev. destruct st; reflexivity.
  - destruct c, cu, st, ru; cbn in E; injection E as <- <-; reflexivity.
  - destruct st; cbn in E; injection E as <- <-; try reflexivity.
  - injection E as <- <-. cbn in HO |- *. ev. destruct vs, va; subst st; try reflexivity.
    + symmetry. apply HO. reflexivity.
    + destruct pe as [h|]; [|destruct re as [[h q]|]]; reflexivity.
  - destruct (N.min k (tm - tu) =? 0); [injection E as <- <-; reflexivity|].
    destruct st; injection E as <- <-; reflexivity.
  - injection E as <- <-. reflexivity.
  - destruct re as [[h q]|], cu as [h'|], sc as [h''|]; try (injection E as <- <-; reflexivity).
    destruct ((q =? pid) && (h =? h')%nat && (h =? h'')%nat); injection E as <- <-; reflexivity.
  - injection E as <- <-. reflexivity.
Qed.

Lemma spid_run os : forall s v s' h,
  J s v -> spid s = v_pid v -> orderly v h -> prun s os = (s', h) -> dead s' = false -> spid s' = v_pid (fold_left view_step h v).
Proof.
  induction os as [|o os IH]; intros s v s' h HJ HS HO E HD; cbn [prun] in E.
  - injection E as <- <-. exact HS.
  - destruct (pstep s o) as [s1 x] eqn:E1. destruct (prun s1 os) as [s2 h2] eqn:E2. injection E as <- <-.
    destruct HO as [HO1 HO2].
    assert (D : dead s1 = false).
    { destruct (dead s1) eqn:D; [|reflexivity]. pose proof (dead_run os s1 D) as X. rewrite E2 in X. cbn in X. congruence. }
    cbn [fold_left]. eapply IH; eauto.
    + eapply J_step; eauto.
    + eapply spid_step; eauto.
Qed.
