From Coq Require Import List Arith Bool Lia.
From Verif Require Import FactModel FactSpec FactProof.
Import ListNotations.

Lemma set_same_lock s t x : set_th s t x = set_th (set_lock s (lockh s)) t x.
Proof. destruct s; reflexivity. Qed.

Lemma crit_lock c s t : inv c s -> crit (th s t) = true -> lockh s = Some t.
Proof. intros V H. now apply (i_lock _ _ V). Qed.

(** The acting thread keeps or takes a place in which it has the mutex as before. *)
Lemma inv_goto c s t x :
  inv c s -> tok c s x -> crit x = crit (th s t) ->
  (forall r, mention x = Some r -> mention (th s t) = Some r \/ forall t', mention (th s t') <> Some r) ->
  (forall r, mention (th s t) = Some r -> mention x = Some r \/ 0 < held s r \/ mapd s r = false) ->
  inv c (set_th s t x).
Proof.
  intros V TX CX MX MO. rewrite set_same_lock. apply inv_move; auto.
  rewrite CX. apply (i_lock _ _ V).
Qed.

(** The acting thread gives the mutex back. *)
Lemma inv_leave c s t x :
  inv c s -> tok c s x -> crit x = false -> crit (th s t) = true -> mention x = None ->
  (forall r, mention (th s t) = Some r -> 0 < held s r \/ mapd s r = false) ->
  inv c (set_th (set_lock s None) t x).
Proof.
  intros V TX CX CT MX MO. apply inv_move; auto.
  - rewrite CX. split; discriminate.
  - right. split; auto. right. now apply (crit_lock c).
  - rewrite MX. discriminate.
Qed.

(** Nobody uses memory the application holds except a call that owns the mutex. *)
Lemma held_mention c s t r : inv c s -> mention (th s t) = Some r -> 0 < held s r -> crit (th s t) = true.
Proof.
  intros V M H. assert (T := i_tok _ _ V t). destruct (th s t); cbn in *; try discriminate; auto;
    injection M as ->; destruct T as (_ & Z & _); lia.
Qed.

Lemma lone c s t r : inv c s -> crit (th s t) = true -> mention (th s t) = None -> 0 < held s r ->
  forall t', mention (th s t') <> Some r.
Proof.
  intros V C MN H t' M. assert (C' := held_mention _ _ _ _ V M H).
  apply (crit_lock _ _ _ V) in C. apply (crit_lock _ _ _ V) in C'.
  rewrite C in C'. injection C' as <-. congruence.
Qed.

(** Taking an identifier out of the registry keeps everything else. *)
Lemma inv_unreg c s p : inv c s -> inv c (unregister c s p).
Proof.
  intros [A B C D E F G]. split; auto.
  - intros t. apply (tok_frame c s); cbn; auto. intros r M. repeat split; auto.
    intros N k. cbn. destruct (Nat.eq_dec k (key c p)) as [->|X]; [rewrite upd_eq; discriminate|rewrite upd_neq by exact X; apply N].
  - cbn. intros k r. destruct (Nat.eq_dec k (key c p)) as [->|X]; [rewrite upd_eq; discriminate|rewrite upd_neq by exact X; apply F].
Qed.

Lemma unreg_noreg c s r : inv c s -> noreg (unregister c s (rpath (info s r))) r.
Proof.
  intros V k. cbn. destruct (Nat.eq_dec k (key c (rpath (info s r)))) as [->|X]; [rewrite upd_eq; discriminate|].
  rewrite upd_neq by exact X. intros E. apply X. now apply (i_reg _ _ V) in E as (_ & -> & _).
Qed.

Lemma inv_unmap c s t r x lk :
  inv c s -> mention (th s t) = Some r -> noreg s r -> held s r = 0 ->
  tok c s x -> mention x = None ->  (forall o, x <> TFs o) ->
  (crit x = true <-> lk = Some t) ->
  (lk = lockh s \/ ((lockh s = None \/ lockh s = Some t) /\ (lk = None \/ lk = Some t))) ->
  inv c (set_th (set_lock (set_mapd s (upd (mapd s) r false)) lk) t x).
Proof.
  intros V M NR HZ TX MX NF CX LK. apply (inv_frame c s _ t x); cbn; auto.
  - destruct x; cbn in *; auto; discriminate.
  - rewrite MX. discriminate.
  - intros t' r' N M' NM. repeat split; auto. rewrite upd_neq; congruence.
  - intros r' H. destruct (Nat.eq_dec r' r) as [->|N]; [lia|rewrite upd_neq by exact N; now apply V].
  - apply V.
  - intros k r' E. destruct (i_reg _ _ V k r' E) as (A & B & C). repeat split; auto.
    rewrite upd_neq; auto. intros ->. exact (NR k E).
  - intros r'. destruct (Nat.eq_dec r' r) as [->|N]; [rewrite upd_eq; discriminate|rewrite upd_neq by exact N].
    intros A. destruct (i_map _ _ V r' A) as [L [B|(t' & B)]]; split; auto.
    right. right. exists t'. split; auto. intros ->. congruence.
Qed.

Lemma inv_looked c s t o : inv c s -> th s t = TLook o -> inv c (looked s t o).
Proof.
  intros V ET. unfold looked. destruct (lookup s (opath o)) as [f s1] eqn:EL.
  destruct (lookup_inv _ _ _ _ _ V EL) as (V1 & E1 & E2 & E3 & E4 & E5 & E6 & E7 & E8 & E9 & E10 & F).
  assert (CT : crit (th s1 t) = true) by now rewrite E1, ET.
  assert (MT : mention (th s1 t) = None) by now rewrite E1, ET.
  assert (NM : forall r, mention (th s1 t) = Some r -> False) by (rewrite MT; discriminate).
  destruct f as [r|].
  - destruct F as (Fm & H & ->).
    assert (LO := lone _ _ t r V CT MT H).
    destruct (i_fmap _ _ V _ _ Fm) as [L RP]. destruct (i_held _ _ V _ H) as [_ MP].
    destruct o; cbn [opath] in *.
    + apply inv_goto; auto; cbn; auto. * intros r' [= <-]. auto. * intros r' M. destruct (NM _ M).
    + apply inv_goto; auto; cbn; auto. * intros r' [= <-]. auto. * intros r' M. destruct (NM _ M).
    + apply inv_goto; auto; cbn; auto. * intros r' [= <-]. auto. * intros r' M. destruct (NM _ M).
    + apply inv_goto; cbn; auto. * now apply inv_set_fmap_none. * intros r' [= <-]. auto. * intros r' M. destruct (NM _ M).
    + now apply inv_dead.
  - destruct F as (Fm & Fo & Fz).
    destruct o; cbn [opath] in *.
    + apply inv_goto; auto; cbn; auto. * discriminate. * intros r' M. destruct (NM _ M).
    + apply inv_goto; auto; cbn; auto. * discriminate. * intros r' M. destruct (NM _ M).
    + apply inv_goto; auto; cbn; auto. * discriminate. * intros r' M. destruct (NM _ M).
    + unfold finish. apply inv_leave; auto; cbn; auto. intros r' M. destruct (NM _ M).
    + apply inv_leave; auto; cbn; auto. intros r' M. destruct (NM _ M).
Qed.

Lemma inv_opened c s t o f w :
  inv c s -> th s t = TFs o -> inv c (opened s t o f w).
Proof.
  intros V ET. assert (T := i_tok _ _ V t). rewrite ET in T. cbn in T. destruct T as [O FN].
  assert (LK : lockh s = Some t) by (apply (crit_lock c); auto; now rewrite ET).
  assert (NU : forall r, nxt s <= r -> mapd s r = false /\ held s r = 0).
  { intros r L. split.
    - destruct (mapd s r) eqn:E; auto. apply (i_map _ _ V) in E as [E _]. lia.
    - destruct (Nat.eq_dec (held s r) 0); auto. assert (P : 0 < held s r) by lia. apply (i_held _ _ V) in P as [P _]. lia. }
  destruct (NU (nxt s) (le_n _)) as [NM NH].
  unfold opened, new_res. apply (inv_frame c s _ t (TMap o (nxt s))); cbn; auto.
  - rewrite upd_eq. cbn. repeat split; auto. intros k E. apply (i_reg _ _ V) in E as [E _]. lia.
  - split; auto.
  - intros r [= <-]. right. intros t' M. apply (mention_tok c s) in M; [lia|apply V].
  - intros r L. split; [lia|]. rewrite upd_neq; auto. lia.
  - intros r H. apply (i_held _ _ V) in H as [? ?]. split; auto.
  - intros p r E. apply (i_fmap _ _ V) in E as [? ?]. split; auto. rewrite upd_neq; auto. lia.
  - intros k r E. apply (i_reg _ _ V) in E as (? & ? & ?). rewrite upd_neq by lia. auto.
  - intros r M. destruct (i_map _ _ V r M) as [L [A|(t' & A)]]; split; auto.
    right. right. exists t'. split; auto. intros ->. rewrite ET in A. discriminate.
Qed.

Lemma inv_fs c s t o ok : inv c s -> th s t = TFs o -> inv c (fs_step c s t o ok).
Proof.
  intros V ET.
  assert (TMP : inv c (set_th s t (TTmp o))).
  { apply inv_goto; auto; cbn; rewrite ?ET; auto; discriminate. }
  assert (CR : inv c (created c s t o)).
  { unfold created. apply inv_opened; [|exact ET]. now apply inv_files. }
  unfold fs_step. destruct o; cbn [opath] in *; auto; destruct (files s p) as [f|]; destruct ok; auto;
    try (apply inv_opened; auto); try (now apply inv_dead).
Qed.

Lemma inv_map c s t o r : inv c s -> th s t = TMap o r -> inv c (map_step c s t o r).
Proof.
  intros V ET. assert (T := i_tok _ _ V t). rewrite ET in T. cbn in T. destruct T as (O & FN & L & RP & HZ & NR & NM).
  assert (LK : lockh s = Some t) by (apply (crit_lock c); auto; now rewrite ET).
  unfold map_step. destruct (reg s (key c (rpath (info s r)))) eqn:E; [now apply inv_dead|].
  apply (inv_frame c s _ t (TIns o r)); cbn; auto.
  - rewrite upd_eq. auto 10.
  - split; auto.
  - rewrite ET. auto.
  - rewrite ET. intros t' r' N M NM'. cbn in NM'. repeat split; auto.
    + rewrite upd_neq; congruence.
    + intros X k. cbn. destruct (Nat.eq_dec k (key c (rpath (info s r)))) as [->|Y]; [rewrite upd_eq; congruence|rewrite upd_neq by exact Y; apply X].
  - intros r' H. destruct (i_held _ _ V _ H). split; auto. destruct (Nat.eq_dec r' r) as [->|N]; [apply upd_eq|now rewrite upd_neq].
  - apply V.
  - intros k r'. destruct (Nat.eq_dec k (key c (rpath (info s r)))) as [->|Y]; [rewrite upd_eq; intros [= <-]; rewrite upd_eq; auto|].
    rewrite upd_neq by exact Y. intros A. assert (r' <> r) by (intros ->; exact (NR _ A)). rewrite upd_neq by auto. now apply V.
  - intros r' M. destruct (Nat.eq_dec r' r) as [->|N]; [auto|]. rewrite upd_neq in M by exact N.
    destruct (i_map _ _ V r' M) as [L' [A|(t' & A)]]; split; auto.
    right. right. exists t'. split; auto. intros ->. rewrite ET in A. cbn in A. congruence.
Qed.

Lemma inv_fmap_set c s t o r x :
  inv c s -> th s t = TIns o r -> x = TCheck o r \/ x = TIns o r ->
  inv c (set_th (set_fmap s (upd (fmap s) (opath o) (Some r))) t (TCheck o r)).
Proof.
  intros V ET _. assert (T := i_tok _ _ V t). rewrite ET in T. cbn in T. destruct T as (O & FN & L & RP & HZ & NM).
  assert (LK : lockh s = Some t) by (apply (crit_lock c); auto; now rewrite ET).
  apply (inv_frame c s _ t (TCheck o r)); cbn; auto.
  - split; auto.
  - rewrite ET. auto.
  - apply V.
  - intros p r'. destruct (Nat.eq_dec p (opath o)) as [->|N]; [rewrite upd_eq; intros [= <-]; auto|rewrite upd_neq by exact N; apply V].
  - apply V.
  - intros r' M. destruct (i_map _ _ V r' M) as [L' [A|(t' & A)]]; split; auto.
    destruct (Nat.eq_dec r' r) as [->|N]; auto. right. right. exists t'. split; auto. intros ->. rewrite ET in A. cbn in A. congruence.
Qed.

Lemma set_th_twice s t x y : (forall t', th (set_th (set_th s t x) t y) t' = th (set_th s t y) t').
Proof. intros t'. cbn. unfold upd. now destruct (Nat.eqb t' t). Qed.

Lemma inv_ext c s s' : inv c s ->
  info s' = info s -> nxt s' = nxt s -> mapd s' = mapd s -> held s' = held s -> fmap s' = fmap s -> reg s' = reg s ->
  lockh s' = lockh s -> (forall t, th s' t = th s t) -> inv c s'.
Proof.
  intros [A B C D E F G] E1 E2 E3 E4 E5 E6 E7 E8.
  split; intros *; rewrite ?E8, ?E1, ?E2, ?E3, ?E4, ?E5, ?E6, ?E7; auto.
  - specialize (A t). destruct (th s t); cbn in *; unfold noreg in *; rewrite ?E1, ?E2, ?E3, ?E4, ?E5, ?E6 in *; auto.
  - apply C.
  - intros M. destruct (G r M) as [L [K|(t & K)]]; split; auto. right. exists t. now rewrite E8.
Qed.

Lemma inv_ins c s t o r : inv c s -> th s t = TIns o r -> inv c (ins_step s t o r).
Proof.
  intros V ET. assert (T := i_tok _ _ V t). rewrite ET in T. cbn in T. destruct T as (O & FN & L & RP & HZ & NM).
  assert (LK : lockh s = Some t) by (apply (crit_lock c); auto; now rewrite ET).
  unfold ins_step. rewrite FN.
  assert (V1 := inv_fmap_set _ _ _ _ _ _ V ET (or_introl eq_refl)).
  destruct o; auto.
  eapply inv_ext; [apply (inv_give c _ t (Create p) r V1)|..]; cbn; auto.
  - now rewrite upd_eq.
  - intros t'. unfold upd. now destruct (Nat.eqb t' t).
Qed.

Lemma inv_release c s t r : inv c s -> th s t = Idle -> 0 < held s r -> inv c (release s t r).
Proof.
  intros V ET H. unfold release. destruct (i_held _ _ V _ H) as [L MP].
  assert (LKN : lockh s <> Some t) by (intros E; apply (i_lock _ _ V) in E; rewrite ET in E; discriminate).
  destruct (Nat.eqb (held s r) 1 && negb (is_some r (lock_temp s))) eqn:E.
  - apply andb_true_iff in E as [E1 E2]. apply Nat.eqb_eq in E1. apply negb_true_iff in E2.
    assert (NOM : forall t', mention (th s t') <> Some r).
    { intros t' M. assert (C := held_mention _ _ _ _ V M H). assert (K := crit_lock _ _ _ V C).
      unfold lock_temp in E2. rewrite K in E2. assert (T := i_tok _ _ V t').
      destruct (th s t'); cbn in *; try discriminate; injection M as ->; rewrite ?Nat.eqb_refl in E2; try discriminate;
        destruct T as (? & ? & ? & ?); lia. }
    apply (inv_frame c s _ t (TDtor r)); cbn; auto.
    + rewrite upd_eq, E1. auto.
    + split; [discriminate|congruence].
    + intros r' [= <-]. auto.
    + intros t' r' N M NM. repeat split; auto. rewrite upd_neq; auto. intros ->. exact (NOM _ M).
    + intros r'. destruct (Nat.eq_dec r' r) as [->|N]; [auto|rewrite upd_neq by exact N; apply V].
    + apply V. + apply V.
    + intros r' M. destruct (Nat.eq_dec r' r) as [->|N]; [auto|]. rewrite upd_neq by exact N.
      destruct (i_map _ _ V r' M) as [L' [A|(t' & A)]]; split; auto.
      right. right. exists t'. split; auto. intros ->. rewrite ET in A. discriminate.
  - destruct (i_lock _ _ V) with (t := t) as [_ _].
    eapply (inv_frame c s _ t Idle); cbn; auto.
    + intros t'. destruct (Nat.eq_dec t' t) as [->|N]; [now rewrite upd_eq|now rewrite upd_neq].
    + split; [discriminate|congruence].
    + discriminate.
    + intros t' r' N M NM. repeat split; auto. intros Z. destruct (Nat.eq_dec r' r) as [->|X]; [lia|now rewrite upd_neq].
    + intros r'. destruct (Nat.eq_dec r' r) as [->|N]; [auto|rewrite upd_neq by exact N; apply V].
    + apply V. + apply V.
    + intros r' M. destruct (i_map _ _ V r' M) as [L' A]; split; auto.
      assert (B : 0 < held s r' \/ exists t', t' <> t /\ mention (th s t') = Some r').
      { destruct A as [A|(t' & A)]; auto. right. exists t'. split; auto. intros ->. rewrite ET in A. discriminate. }
      destruct (Nat.eq_dec r' r) as [->|N]; [|rewrite upd_neq by exact N; destruct B; auto].
      rewrite upd_eq. destruct (Nat.eqb_spec (held s r) 1) as [E1|E1]; [|left; lia].
      cbn in E. apply negb_false_iff in E. unfold lock_temp in E. destruct (lockh s) as [t'|] eqn:EK; [|discriminate].
      destruct (temp (th s t')) as [r'|] eqn:ER; [|discriminate]. cbn in E. apply Nat.eqb_eq in E. subst r'.
      right. right. exists t'. split; [congruence|]. now apply temp_mention.
Qed.

Lemma inv_step c s l s' : inv c s -> apply c s l = Some s' -> inv c s'.
Proof.
  intros V. unfold apply. destruct (dead s); [discriminate|].
  destruct l as [t o|t ok|r|t r|p [u|]].
  - destruct (th s t) eqn:E; try discriminate. intros [= <-]. now apply inv_call.
  - unfold thread_step. assert (T := i_tok _ _ V t). destruct (th s t) eqn:ET; try discriminate; cbn in T.
    + (* TLock *) destruct (lockh s) eqn:LK; try discriminate. intros [= <-].
      apply inv_move; auto; cbn; try tauto; try discriminate. rewrite ET. discriminate.
    + intros [= <-]. now apply inv_looked.
    + intros [= <-]. now apply inv_fs.
    + intros [= <-]. now apply inv_map.
    + intros [= <-]. now apply inv_ins.
    + (* TCheck *) intros [= <-]. unfold check_step. destruct T as (O & L & RP & MP).
      destruct (admitted c (ruid (info s r)) (allowed o)) eqn:AD.
      * apply inv_give; auto; [apply (crit_lock c); auto|]; now rewrite ET.
      * apply inv_goto; auto; cbn; rewrite ?ET; cbn; auto.
    + (* TUnl *) intros [= <-]. destruct T as (L & RP & MP).
      apply (inv_goto c (set_files s (upd (files s) (opath o) None)) t); cbn; rewrite ?ET; cbn; auto. now apply inv_files.
    + (* TDrop *) intros [= <-]. destruct T as (L & RP & MP). destruct (Nat.ltb_spec 0 (held s r)).
      * unfold finish. apply inv_leave; auto; cbn; rewrite ?ET; cbn; auto. intros r' [= <-]. auto.
      * apply inv_goto; auto; cbn; rewrite ?ET; cbn; auto. repeat split; auto. lia.
    + (* TDtorL *) intros [= <-]. destruct T as (L & RP & HZ & MP).
      apply inv_goto; cbn; rewrite ?ET; cbn; auto; [now apply inv_unreg|].
      repeat split; auto. now apply unreg_noreg.
    + (* TUnmapL *) intros [= <-]. destruct T as (L & HZ & NR & MP). unfold finish.
      apply inv_unmap; cbn; rewrite ?ET; cbn; auto; try discriminate.
      * split; discriminate.
      * right. split; auto. right. apply (crit_lock c); auto. now rewrite ET.
    + (* TTmp *) intros [= <-]. unfold finish. apply inv_leave; cbn; rewrite ?ET; cbn; auto; try discriminate. now apply inv_unreg.
    + (* TStale *) intros [= <-].
      apply (inv_goto c (set_files s (upd (files s) (opath o) None)) t); cbn; rewrite ?ET; cbn; auto; try discriminate. now apply inv_files.
    + (* TDtor *) intros [= <-]. destruct T as (L & HZ & MP).
      apply inv_goto; cbn; rewrite ?ET; cbn; auto; [now apply inv_unreg|].
      repeat split; auto. now apply unreg_noreg.
    + (* TUnmap *) intros [= <-]. destruct T as (L & HZ & NR & MP). rewrite set_same_lock.
      apply inv_unmap; cbn; rewrite ?ET; cbn; auto; try discriminate.
      split; [discriminate|]. intros E. apply (i_lock _ _ V) in E. rewrite ET in E. discriminate.
    + (* TDone *) intros [= <-]. apply inv_goto; cbn; rewrite ?ET; cbn; auto; discriminate.
  - destruct (Nat.ltb_spec 0 (held s r)) as [H|]; [|discriminate]. intros [= <-].
    destruct (i_held _ _ V _ H) as [L MP]. destruct V as [A B C D E F G]. split; cbn; auto.
    + intros t. apply (tok_frame c s); cbn; auto. intros r' M. repeat split; auto. intros Z.
      destruct (Nat.eq_dec r' r) as [->|N]; [lia|now rewrite upd_neq].
    + intros r'. destruct (Nat.eq_dec r' r) as [->|N]; [auto|rewrite upd_neq by exact N; apply D].
    + intros r' M. destruct (G r' M) as [L' [K|K]]; split; auto. left.
      destruct (Nat.eq_dec r' r) as [->|N]; [rewrite upd_eq; lia|now rewrite upd_neq].
  - destruct (th s t) eqn:E; try discriminate. destruct (Nat.ltb_spec 0 (held s r)) as [H|]; [|discriminate].
    intros [= <-]. now apply inv_release.
  - destruct (files s p); [discriminate|]. intros [= <-]. now apply inv_files.
  - intros [= <-]. now apply inv_files.
Qed.

Lemma inv_run c ls : forall s s', inv c s -> run c s ls = Some s' -> inv c s'.
Proof.
  induction ls as [|l ls IH]; cbn; intros s s' V E; [congruence|].
  destruct (apply c s l) as [s1|] eqn:A; [|discriminate]. eauto using inv_step.
Qed.

Lemma reach_inv c ls s : run c init ls = Some s -> inv c s.
Proof. apply inv_run, inv_init. Qed.
