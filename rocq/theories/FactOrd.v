From Coq Require Import List Arith Bool Lia.
From Verif Require Import FactModel FactSpec FactProof FactInv.
Import ListNotations.

Definition regst (x : tst) : option nat :=
  match x with
  | TIns _ r | TCheck _ r | TUnl _ r | TDrop _ r | TDtorL _ r | TDtor r => Some r
  | _ => None
  end.
(** A call that found nothing and has not registered anything. *)
Definition seeking (x : tst) : option op :=
  match x with TFs o | TMap o _ | TTmp o => Some o | _ => None end.

Record dinv (c : cfg) (s : st) : Prop := mkD {
  d_none : forall t o, seeking (th s t) = Some o -> forall r, r < nxt s -> rpath (info s r) = opath o ->
             held s r = 0 /\ forall t', th s t' <> TDtor r;
  d_reg : forall r, (0 < held s r \/ exists t, regst (th s t) = Some r) -> registered c s r
}.

Lemma dinv_init c : dinv c init.
Proof. split; cbn; try discriminate. intros r [H|(t & H)]; [lia|discriminate]. Qed.

Lemma regst_mention x r : regst x = Some r -> mention x = Some r.
Proof. destruct x; cbn; congruence. Qed.
Lemma seeking_crit x o : seeking x = Some o -> crit x = true.
Proof. destruct x; cbn; congruence. Qed.

(** What is registered is held, or used by a thread. *)
Lemma reg_owner c s k r : inv c s -> reg s k = Some r -> 0 < held s r \/ exists t, regst (th s t) = Some r.
Proof.
  intros V E. destruct (i_reg _ _ V _ _ E) as (L & K & M).
  destruct (i_map _ _ V _ M) as [_ [H|(t & H)]]; auto. right. exists t.
  assert (T := i_tok _ _ V t). destruct (th s t); cbn in *; try discriminate; auto; injection H as ->; exfalso.
  - destruct T as (_ & _ & _ & _ & _ & N & _). exact (N _ E).
  - destruct T as (_ & _ & N & _). exact (N _ E).
  - destruct T as (_ & _ & N & _). exact (N _ E).
Qed.

Lemma dinv_frame c s s' t x :
  inv c s -> dinv c s -> nxt s <= nxt s' ->
  (forall t', th s' t' = upd (th s) t x t') ->
  (forall o, seeking x = Some o -> forall r, r < nxt s' -> rpath (info s' r) = opath o ->
             held s' r = 0 /\ forall t', th s' t' <> TDtor r) ->
  (crit (th s t) = true \/ lockh s = None \/
     (nxt s' = nxt s /\ info s' = info s /\ (forall r, held s r = 0 -> held s' r = 0) /\
      (forall r, x = TDtor r -> 0 < held s r))) ->
  (forall r, (0 < held s' r \/ regst x = Some r \/ exists t', t' <> t /\ regst (th s t') = Some r) -> registered c s' r) ->
  dinv c s'.
Proof.
  intros V D NX TH DX DO DR. split.
  - intros t' o. rewrite TH. destruct (Nat.eq_dec t' t) as [->|N]; [rewrite upd_eq; apply DX|].
    rewrite upd_neq by exact N. intros S. assert (C := seeking_crit _ _ S). apply (crit_lock _ _ _ V) in C.
    destruct DO as [DO|[DO|(E1 & E2 & E3 & E4)]]; [apply (crit_lock _ _ _ V) in DO; congruence|congruence|].
    intros r L R. rewrite E1 in L. rewrite E2 in R. destruct (d_none _ _ D _ _ S r L R) as [H1 H2]. split; auto.
    intros t2. rewrite TH. destruct (Nat.eq_dec t2 t) as [->|N2]; [rewrite upd_eq; intros ->|now rewrite upd_neq].
    specialize (E4 r eq_refl). lia.
  - intros r [H|(t' & H)]; apply DR; auto. rewrite TH in H. destruct (Nat.eq_dec t' t) as [->|N].
    + rewrite upd_eq in H. auto.
    + rewrite upd_neq in H by exact N. right. right. eauto.
Qed.

(** Nothing about handles and registrations changes; the thread's new place is no more demanding. *)
Lemma dinv_goto c s t x lk :
  inv c s -> dinv c s ->
  (forall r, x <> TDtor r) ->
  (seeking x = None \/ seeking x = seeking (th s t)) ->
  (forall r, regst x = Some r -> regst (th s t) = Some r \/ 0 < held s r) ->
  dinv c (set_th (set_lock s lk) t x).
Proof.
  intros V D ND SX RX. apply (dinv_frame c s _ t x); cbn; auto.
  - intros o S r L R. destruct SX as [E|E]; rewrite E in S; [discriminate|].
    destruct (d_none _ _ D _ _ S r L R) as [H1 H2]. split; auto.
    intros t2. destruct (Nat.eq_dec t2 t) as [->|N2]; [rewrite upd_eq; apply ND|now rewrite upd_neq].
  - right. right. repeat split; auto. intros r E. destruct (ND r E).
  - intros r H. apply (d_reg _ _ D). destruct H as [H|[H|(t' & _ & H)]]; eauto.
    destruct (RX _ H) as [A|A]; eauto.
Qed.

Lemma dinv_goto' c s t x :
  inv c s -> dinv c s ->
  (forall r, x <> TDtor r) ->
  (seeking x = None \/ seeking x = seeking (th s t)) ->
  (forall r, regst x = Some r -> regst (th s t) = Some r \/ 0 < held s r) ->
  dinv c (set_th s t x).
Proof. intros. rewrite set_same_lock. now apply dinv_goto. Qed.

Lemma dinv_same c s s' : dinv c s -> info s' = info s -> nxt s' = nxt s -> held s' = held s -> reg s' = reg s ->
  (forall t, th s' t = th s t) -> dinv c s'.
Proof.
  intros [A B] E1 E2 E3 E4 E5. split.
  - intros t o. rewrite E5, E2, E1, E3. intros S r L R. destruct (A t o S r L R) as [H1 H2]. split; auto.
    intros t'. now rewrite E5.
  - intros r H. unfold registered. rewrite E4, E1. apply B. rewrite E3 in H. destruct H as [H|(t & H)]; auto.
    right. exists t. now rewrite E5 in H.
Qed.

(** Taking out [p]'s identifier hurts nobody who has another one. *)
Lemma unreg_other c s p r : registered c s r -> key c (rpath (info s r)) <> key c p -> registered c (unregister c s p) r.
Proof. unfold registered, unregister. cbn. intros H N. now rewrite upd_neq. Qed.

Lemma dinv_leave_dtor c s t r x lk :
  inv c s -> dinv c s -> regst (th s t) = Some r -> held s r = 0 ->
  (forall r', x <> TDtor r') -> seeking x = None -> regst x = None ->
  dinv c (set_th (set_lock (unregister c s (rpath (info s r))) lk) t x).
Proof.
  intros V D R HZ ND SX RX. apply (dinv_frame c s _ t x); cbn; auto.
  - rewrite SX. discriminate.
  - right. right. repeat split; auto. intros r' E. destruct (ND r' E).
  - intros r' H.
    assert (Hr : registered c s r) by (apply (d_reg _ _ D); eauto).
    assert (Hr' : registered c s r').
    { apply (d_reg _ _ D). destruct H as [H|[H|(t' & _ & H)]]; eauto. congruence. }
    change (registered c (unregister c s (rpath (info s r))) r'). apply unreg_other; auto.
    intros K. unfold registered in *. rewrite K, Hr in Hr'. injection Hr' as <-.
    destruct H as [H|[H|(t' & N & H)]]; [lia|congruence|].
    apply N. exact (i_uniq _ _ V _ _ _ (regst_mention _ _ H) (regst_mention _ _ R)).
Qed.

Lemma dinv_looked c s t o :
  inv c s -> dinv c s -> th s t = TLook o ->
  (opens o = true -> no_removed s (opath o) /\ no_dropping s (opath o)) ->
  dinv c (looked s t o).
Proof.
  intros V D ET ORD. unfold looked. destruct (lookup s (opath o)) as [f s1] eqn:EL.
  destruct (lookup_inv _ _ _ _ _ V EL) as (V1 & E1 & E2 & E3 & E4 & E5 & E6 & E7 & E8 & E9 & E10 & F).
  assert (D1 : dinv c s1) by (apply (dinv_same c s); auto; intros; now rewrite E1).
  assert (ET1 : th s1 t = TLook o) by now rewrite E1.
  destruct f as [r|].
  - destruct F as (Fm & H & ->).
    destruct o; try (apply dinv_goto'; auto; cbn; try discriminate; intros r' [= <-]; auto).
    + apply (dinv_same c (set_th s t (TUnl (Remove p) r))); auto.
      apply dinv_goto'; auto; cbn; try discriminate; auto. intros r' [= <-]; auto.
    + now apply (dinv_same c s).
  - destruct F as (Fm & Fo & Fz).
    assert (SK : opens o = true -> dinv c (set_th s1 t (TFs o))).
    { intros O. destruct (ORD O) as [NR ND]. apply (dinv_frame c s1 _ t (TFs o)); cbn; auto.
      - intros o' [= <-] r L R. rewrite E4 in R. split.
        + destruct (Nat.eq_dec (held s1 r) 0); auto. exfalso. rewrite E3 in *.
          assert (P : 0 < held s r) by lia. specialize (NR r P R). specialize (Fz r NR). lia.
        + intros t2. destruct (Nat.eq_dec t2 t) as [->|N2]; [rewrite upd_eq; discriminate|rewrite upd_neq by exact N2].
          rewrite E1. intros E. exact (ND _ _ E R).
      - left. now rewrite ET1.
      - intros r H. apply (d_reg _ _ D1). destruct H as [H|[H|(t' & _ & H)]]; eauto. discriminate. }
    destruct o; auto.
    + unfold finish. apply dinv_goto; auto; cbn; try discriminate; auto.
    + apply dinv_goto; auto; cbn; try discriminate; auto.
Qed.

Lemma dinv_opened c s t o f w : inv c s -> dinv c s -> th s t = TFs o -> dinv c (opened s t o f w).
Proof.
  intros V D ET. unfold opened, new_res. apply (dinv_frame c s _ t (TMap o (nxt s))); cbn; auto.
  - intros o' [= <-] r L R. destruct (Nat.eq_dec r (nxt s)) as [->|N].
    + split.
      * destruct (Nat.eq_dec (held s (nxt s)) 0); auto. assert (P : 0 < held s (nxt s)) by lia. apply (i_held _ _ V) in P as [P _]. lia.
      * intros t2. destruct (Nat.eq_dec t2 t) as [->|N2]; [rewrite upd_eq; discriminate|rewrite upd_neq by exact N2].
        intros E. assert (T := i_tok _ _ V t2). rewrite E in T. destruct T as [T _]. lia.
    + rewrite upd_neq in R by exact N. assert (SS : seeking (th s t) = Some o) by now rewrite ET.
      destruct (d_none _ _ D _ _ SS r ltac:(lia) R) as [H1 H2]. split; auto.
      intros t2. destruct (Nat.eq_dec t2 t) as [->|N2]; [rewrite upd_eq; discriminate|now rewrite upd_neq].
  - left. now rewrite ET.
  - intros r H.
    assert (Hr : registered c s r).
    { apply (d_reg _ _ D). destruct H as [H|[H|(t' & _ & H)]]; eauto. discriminate. }
    unfold registered in *. cbn. rewrite upd_neq; auto.
    apply (i_reg _ _ V) in Hr as [? _]. lia.
Qed.

Lemma dinv_fs c s t o ok : inv c s -> dinv c s -> th s t = TFs o -> dinv c (fs_step c s t o ok).
Proof.
  intros V D ET.
  assert (TMP : dinv c (set_th s t (TTmp o))).
  { apply dinv_goto'; auto; cbn; rewrite ?ET; auto; discriminate. }
  assert (CR : dinv c (created c s t o)).
  { unfold created. apply dinv_opened; [now apply inv_files| |exact ET]. now apply (dinv_same c s). }
  unfold fs_step. destruct o; cbn [opath] in *; auto; destruct (files s p) as [f|]; destruct ok; auto;
    try (apply dinv_opened; auto); try (now apply (dinv_same c s)).
Qed.

Lemma map_free c s t o r : no_collision c -> inv c s -> dinv c s -> th s t = TMap o r ->
  reg s (key c (rpath (info s r))) = None.
Proof.
  intros INJ V D ET. destruct (reg s (key c (rpath (info s r)))) as [r1|] eqn:E; auto. exfalso.
  assert (T := i_tok _ _ V t). rewrite ET in T. cbn in T. destruct T as (O & FN & L & RP & HZ & NR & NM).
  destruct (i_reg _ _ V _ _ E) as (L1 & K1 & _). apply INJ in K1. rewrite RP in K1.
  assert (S : seeking (th s t) = Some o) by now rewrite ET.
  destruct (d_none _ _ D _ _ S r1 L1 K1) as [H1 H2].
  destruct (reg_owner _ _ _ _ V E) as [H|(t1 & H)]; [lia|].
  destruct (th s t1) eqn:E1; cbn in H; try discriminate; injection H as ->;
    try (assert (C : crit (th s t1) = true) by (rewrite E1; reflexivity);
         assert (C' : crit (th s t) = true) by (rewrite ET; reflexivity);
         apply (crit_lock _ _ _ V) in C; apply (crit_lock _ _ _ V) in C'; rewrite C in C'; injection C' as ->; congruence).
  exact (H2 _ E1).
Qed.

Lemma dinv_map c s t o r : no_collision c -> inv c s -> dinv c s -> th s t = TMap o r -> dinv c (map_step c s t o r).
Proof.
  intros INJ V D ET. unfold map_step. assert (MF := map_free _ _ _ _ _ INJ V D ET). rewrite MF.
  apply (dinv_frame c s _ t (TIns o r)); cbn; auto.
  - discriminate.
  - left. now rewrite ET.
  - intros r' H. unfold registered. cbn.
    destruct (Nat.eq_dec r' r) as [->|N]; [apply upd_eq|].
    assert (Hr : registered c s r').
    { apply (d_reg _ _ D). destruct H as [H|[H|(t' & _ & H)]]; eauto. congruence. }
    unfold registered in Hr. rewrite upd_neq; auto. congruence.
Qed.

Lemma dinv_give c s t o r : inv c s -> dinv c s -> regst (th s t) = Some r -> crit (th s t) = true -> dinv c (give s t o r).
Proof.
  intros V D R C. unfold give, finish. apply (dinv_frame c s _ t (TDone o (Some r))); cbn; auto.
  - discriminate.
  - intros r' H. apply (d_reg _ _ D). destruct H as [H|[H|(t' & _ & H)]]; eauto; [|discriminate].
    destruct (Nat.eq_dec r' r) as [->|N]; eauto. rewrite upd_neq in H; auto.
Qed.

Lemma dinv_step c s l s' :
  no_collision c -> inv c s -> dinv c s -> orderly s l -> apply c s l = Some s' -> dinv c s'.
Proof.
  intros INJ V D ORD. unfold apply. destruct (dead s); [discriminate|].
  destruct l as [t o|t ok|r|t r|p [u|]].
  - destruct (th s t) eqn:E; try discriminate. intros [= <-].
    apply dinv_goto'; auto; cbn; try discriminate; auto.
  - unfold thread_step. assert (T := i_tok _ _ V t). destruct (th s t) eqn:ET; try discriminate; cbn in T.
    + destruct (lockh s) eqn:LK; try discriminate. intros [= <-].
      apply dinv_goto; auto; cbn; try discriminate; auto.
    + intros [= <-]. apply dinv_looked; auto. intros O. apply ORD; auto. exists t, ok. auto.
    + intros [= <-]. now apply dinv_fs.
    + intros [= <-]. now apply dinv_map.
    + intros [= <-]. unfold ins_step. destruct T as (O & FN & _). rewrite FN.
      assert (D1 : dinv c (set_fmap s (upd (fmap s) (opath o) (Some r)))) by now apply (dinv_same c s).
      assert (G : dinv c (set_th (set_fmap s (upd (fmap s) (opath o) (Some r))) t (TCheck o r))).
      { apply (dinv_same c (set_th s t (TCheck o r))); auto.
        apply dinv_goto'; auto; cbn; rewrite ?ET; cbn; auto; discriminate. }
      destruct o; auto.
      apply (dinv_same c (give s t (Create p) r)); auto. apply dinv_give; auto; now rewrite ET.
    + intros [= <-]. unfold check_step. destruct (admitted c (ruid (info s r)) (allowed o)).
      * apply dinv_give; auto; now rewrite ET.
      * apply dinv_goto'; auto; cbn; rewrite ?ET; cbn; auto; discriminate.
    + intros [= <-]. apply (dinv_same c (set_th s t (TDrop o r))); auto.
      apply dinv_goto'; auto; cbn; rewrite ?ET; cbn; auto; discriminate.
    + intros [= <-]. destruct (Nat.ltb_spec 0 (held s r)).
      * unfold finish. apply dinv_goto; auto; cbn; try discriminate; auto.
      * apply dinv_goto'; auto; cbn; rewrite ?ET; cbn; auto; discriminate.
    + intros [= <-]. destruct T as (L & RP & HZ & MP). rewrite set_same_lock.
      apply dinv_leave_dtor; auto; cbn; rewrite ?ET; auto; discriminate.
    + intros [= <-]. unfold finish. apply (dinv_same c (set_th (set_lock s None) t (TDone o None))); auto.
      apply dinv_goto; auto; cbn; try discriminate; auto.
    + (* TTmp *) intros [= <-]. unfold finish. apply (dinv_frame c s _ t (TDone o None)); cbn; auto.
      * discriminate.
      * left. now rewrite ET.
      * intros r H.
        assert (Hr : registered c s r).
        { apply (d_reg _ _ D). destruct H as [H|[H|(t' & _ & H)]]; eauto. discriminate. }
        change (registered c (unregister c s (opath o)) r). apply unreg_other; auto.
        intros K. apply INJ in K. destruct (i_reg _ _ V _ _ Hr) as (L & _).
        assert (SS : seeking (th s t) = Some o) by now rewrite ET.
        destruct (d_none _ _ D _ _ SS r L K) as [H1 H2].
        destruct H as [H|[H|(t' & N & H)]]; [lia|discriminate|].
        destruct (th s t') eqn:E1; cbn in H; try discriminate; injection H as ->;
          try (apply N; assert (C : crit (th s t') = true) by (rewrite E1; reflexivity);
               assert (C' : crit (th s t) = true) by (rewrite ET; reflexivity);
               apply (crit_lock _ _ _ V) in C; apply (crit_lock _ _ _ V) in C'; congruence).
        exact (H2 _ E1).
    + intros [= <-]. apply (dinv_same c (set_th s t (TDone o None))); auto.
      apply dinv_goto'; auto; cbn; try discriminate; auto.
    + intros [= <-]. destruct T as (L & HZ & MP). rewrite set_same_lock.
      apply dinv_leave_dtor; auto; cbn; rewrite ?ET; auto; discriminate.
    + intros [= <-]. apply (dinv_same c (set_th s t Idle)); auto.
      apply dinv_goto'; auto; cbn; try discriminate; auto.
    + intros [= <-]. apply dinv_goto'; auto; cbn; try discriminate; auto.
  - destruct (Nat.ltb_spec 0 (held s r)) as [H|]; [|discriminate]. intros [= <-]. split; cbn.
    + intros t o S r' L R. destruct (d_none _ _ D _ _ S r' L R) as [H1 H2]. split; auto.
      rewrite upd_neq; auto. intros ->. lia.
    + intros r' H'. apply (d_reg _ _ D). destruct H' as [H'|H']; auto.
      destruct (Nat.eq_dec r' r) as [->|N]; auto. rewrite upd_neq in H'; auto.
  - destruct (th s t) eqn:E; try discriminate. destruct (Nat.ltb_spec 0 (held s r)) as [H|]; [|discriminate].
    intros [= <-]. unfold release.
    assert (UP : forall r', 0 < upd (held s) r (pred (held s r)) r' -> 0 < held s r').
    { intros r'. destruct (Nat.eq_dec r' r) as [->|N]; auto. now rewrite upd_neq. }
    assert (DN : forall r', held s r' = 0 -> upd (held s) r (pred (held s r)) r' = 0).
    { intros r' Z. destruct (Nat.eq_dec r' r) as [->|N]; [lia|now rewrite upd_neq]. }
    destruct (Nat.eqb (held s r) 1 && negb (is_some r (lock_temp s))).
    + apply (dinv_frame c s _ t (TDtor r)); cbn; auto.
      * discriminate.
      * right. right. repeat split; auto. intros r' [= <-]. auto.
      * intros r' H'. apply (d_reg _ _ D). destruct H' as [H'|[H'|(t' & _ & H')]]; eauto. injection H' as <-. auto.
    + split; cbn.
      * intros t0 o S r' L R. destruct (d_none _ _ D _ _ S r' L R) as [H1 H2]. split; auto.
      * intros r' H'. apply (d_reg _ _ D). destruct H' as [H'|H']; auto.
  - destruct (files s p); [discriminate|]. intros [= <-]. now apply (dinv_same c s).
  - intros [= <-]. now apply (dinv_same c s).
Qed.

Lemma dinv_run c ls : no_collision c -> forall s s', inv c s -> dinv c s -> along orderly c s ls ->
  run c s ls = Some s' -> dinv c s'.
Proof.
  intros INJ. induction ls as [|l ls IH]; cbn; intros s s' V D A E; [congruence|].
  destruct (apply c s l) as [s1|] eqn:AP; [|discriminate]. destruct A as [A1 A2].
  apply (IH s1); auto; [eapply inv_step; eauto|eapply dinv_step; eauto].
Qed.

(** Termination: only a taken identifier, stale clean-up of held memory, or a refused CreateOrOpen. *)
Lemma alive_step c s l s' :
  no_collision c -> inv c s -> dinv c s -> permitted s l -> apply c s l = Some s' -> dead s' = false.
Proof.
  intros INJ V D [P1 P2]. unfold apply. destruct (dead s) eqn:DE; [discriminate|].
  destruct l as [t o|t ok|r|t r|p [u|]].
  - destruct (th s t); try discriminate. now intros [= <-].
  - unfold thread_step. assert (T := i_tok _ _ V t). destruct (th s t) eqn:ET; try discriminate; cbn in T;
      try (intros [= <-]; exact DE).
    + destruct (lockh s); try discriminate. now intros [= <-].
    + intros [= <-]. unfold looked. destruct (lookup s (opath o)) as [f s1] eqn:EL.
      destruct (lookup_inv _ _ _ _ _ V EL) as (V1 & E1 & E2 & E3 & E4 & E5 & E6 & E7 & E8 & E9 & E10 & F).
      rewrite DE in E10. destruct f as [r|]; destruct o; cbn; auto.
      destruct F as (Fm & H & ->). exfalso. apply (P1 p r); auto; [exists t, ok; auto|].
      now apply (i_fmap _ _ V) in Fm as [_ ?].
    + intros [= <-]. unfold fs_step. destruct o; cbn; auto; destruct (files s p); destruct ok; cbn; auto.
      exfalso. exact (P2 t p al eq_refl ET).
    + intros [= <-]. unfold map_step. now rewrite (map_free _ _ _ _ _ INJ V D ET).
    + intros [= <-]. unfold ins_step. destruct T as (_ & -> & _). destruct o; cbn; auto.
    + intros [= <-]. unfold check_step. destruct (admitted c (ruid (info s r)) (allowed o)); cbn; auto.
    + intros [= <-]. destruct (Nat.ltb 0 (held s r)); cbn; auto.
  - destruct (Nat.ltb 0 (held s r)); [|discriminate]. now intros [= <-].
  - destruct (th s t); try discriminate. destruct (Nat.ltb 0 (held s r)); [|discriminate]. intros [= <-].
    unfold release. destruct (Nat.eqb (held s r) 1 && negb (is_some r (lock_temp s))); auto.
  - destruct (files s p); [discriminate|]. now intros [= <-].
  - now intros [= <-].
Qed.

Lemma alive_run c ls : no_collision c -> forall s s', inv c s -> dinv c s -> dead s = false ->
  along orderly c s ls -> along permitted c s ls -> run c s ls = Some s' -> dead s' = false.
Proof.
  intros INJ. induction ls as [|l ls IH]; cbn; intros s s' V D DE A P E; [congruence|].
  destruct (apply c s l) as [s1|] eqn:AP; [|discriminate]. destruct A as [A1 A2], P as [P1 P2].
  apply (IH s1); auto; [eapply inv_step; eauto|eapply dinv_step; eauto|eapply alive_step; eauto].
Qed.
