From Coq Require Import List Arith Bool Lia.
From Verif Require Import FactModel FactSpec FactProof FactInv.
Import ListNotations.

(** How a step changes resources, objects and calls. *)
Lemma looked_facts c s t o : inv c s ->
  info (looked s t o) = info s /\ nxt (looked s t o) = nxt s /\ files (looked s t o) = files s /\ nino (looked s t o) = nino s /\
  forall t', t' <> t -> th (looked s t o) t' = th s t'.
Proof.
  intros V. unfold looked. destruct (lookup s (opath o)) as [f s1] eqn:EL.
  destruct (lookup_inv _ _ _ _ _ V EL) as (V1 & E1 & E2 & E3 & E4 & E5 & E6 & E7 & E8 & E9 & E10 & F).
  destruct f; destruct o; cbn; rewrite ?E1, ?E4, ?E5, ?E8, ?E9; repeat split; auto; intros; now rewrite upd_neq.
Qed.

Lemma looked_call s t o : th s t = TLook o ->
  call_of (th (looked s t o) t) = Some o \/ call_of (th (looked s t o) t) = None.
Proof.
  intros ET. unfold looked, lookup. destruct (fmap s (opath o)) as [r|]; [destruct (Nat.ltb 0 (held s r))|];
    destruct o; cbn; rewrite ?upd_eq; cbn; auto; rewrite ET; auto.
Qed.

(** A thread gets into a call only by making it. *)
Lemma call_step c s l s' t o : inv c s -> apply c s l = Some s' -> call_of (th s' t) = Some o ->
  call_of (th s t) = Some o \/ l = LCall t o.
Proof.
  intros V. unfold apply. destruct (dead s); [discriminate|].
  destruct l as [t1 o1|t1 ok|r|t1 r|p [u|]].
  - destruct (th s t1) eqn:E; try discriminate. intros [= <-]. cbn.
    destruct (Nat.eq_dec t t1) as [->|N]; [rewrite upd_eq; cbn; intros [= <-]; auto|rewrite upd_neq by exact N; auto].
  - unfold thread_step. intros A. destruct (Nat.eq_dec t t1) as [->|N].
    + revert A. destruct (th s t1) eqn:ET; try discriminate; cbn [call_of].
      * destruct (lockh s); try discriminate. intros [= <-]. cbn. rewrite upd_eq. auto.
      * intros [= <-] H. destruct (looked_call s t1 o0 ET) as [E|E]; rewrite E in H; auto; discriminate.
      * intros [= <-]. unfold fs_step. destruct o0; cbn; rewrite ?ET; auto; destruct (files s p); destruct ok; cbn;
          rewrite ?upd_eq, ?ET; cbn; auto.
      * intros [= <-]. unfold map_step. destruct (reg s (key c (rpath (info s r)))); cbn; rewrite ?upd_eq, ?ET; auto.
      * intros [= <-]. unfold ins_step. destruct (fmap s (opath o0)); [cbn; rewrite ET; auto|].
        destruct o0; cbn; rewrite ?upd_eq; cbn; auto; discriminate.
      * intros [= <-]. unfold check_step. destruct (admitted c (ruid (info s r)) (allowed o0)); cbn; rewrite upd_eq; cbn; auto. discriminate.
      * intros [= <-]. cbn. rewrite upd_eq. auto.
      * intros [= <-]. destruct (Nat.ltb 0 (held s r)); cbn; rewrite upd_eq; cbn; auto. discriminate.
      * intros [= <-]. cbn. rewrite upd_eq. auto.
      * intros [= <-]. cbn. rewrite upd_eq. discriminate.
      * intros [= <-]. cbn. rewrite upd_eq. discriminate.
      * intros [= <-]. cbn. rewrite upd_eq. discriminate.
      * intros [= <-]. cbn. rewrite upd_eq. discriminate.
      * intros [= <-]. cbn. rewrite upd_eq. discriminate.
      * intros [= <-]. cbn. rewrite upd_eq. discriminate.
    + assert (TH : th s' t = th s t); [|rewrite TH; auto].
      destruct (th s t1) eqn:ET; try discriminate; try (injection A as <-; cbn; now rewrite ?upd_neq by exact N).
      * destruct (lockh s); try discriminate. injection A as <-. cbn. now rewrite ?upd_neq by exact N.
      * injection A as <-. now apply (looked_facts c).
      * injection A as <-. unfold fs_step. destruct o0; cbn; auto; destruct (files s p); destruct ok; cbn; now rewrite ?upd_neq by exact N.
      * injection A as <-. unfold map_step. destruct (reg s (key c (rpath (info s r)))); cbn; now rewrite ?upd_neq by exact N.
      * injection A as <-. unfold ins_step. destruct (fmap s (opath o0)); [auto|destruct o0; cbn; now rewrite ?upd_neq by exact N].
      * injection A as <-. unfold check_step. destruct (admitted c (ruid (info s r)) (allowed o0)); cbn; now rewrite ?upd_neq by exact N.
      * injection A as <-. destruct (Nat.ltb 0 (held s r)); cbn; now rewrite ?upd_neq by exact N.
  - destruct (Nat.ltb 0 (held s r)); [|discriminate]. intros [= <-]. auto.
  - destruct (th s t1) eqn:E; try discriminate. destruct (Nat.ltb 0 (held s r)); [|discriminate]. intros [= <-].
    unfold release. destruct (Nat.eqb (held s r) 1 && negb (is_some r (lock_temp s))); cbn; auto.
    destruct (Nat.eq_dec t t1) as [->|N]; [rewrite upd_eq; discriminate|rewrite upd_neq by exact N; auto].
  - destruct (files s p); [discriminate|]. intros [= <-]. auto.
  - intros [= <-]. auto.
Qed.

(** What a step does to resources and objects. *)
Inductive change (c : cfg) (s : st) (l : label) (s' : st) : Prop :=
| ch_none : info s' = info s -> nxt s' = nxt s -> files s' = files s -> nino s' = nino s -> change c s l s'
| ch_open t o f w : th s t = TFs o -> files s (opath o) = Some f -> files s' = files s -> nino s' = nino s ->
    nxt s' = S (nxt s) -> info s' = upd (info s) (nxt s) (mkRes (opath o) (ino f) (fuid f) w) ->
    w = wants_write o -> th s' = upd (th s) t (TMap o (nxt s)) -> (forall p, o <> Create p) -> change c s l s'
| ch_create t o : th s t = TFs o -> files s (opath o) = None ->
    files s' = upd (files s) (opath o) (Some (mkFile (nino s) (me c))) -> nino s' = S (nino s) ->
    nxt s' = S (nxt s) -> info s' = upd (info s) (nxt s) (mkRes (opath o) (nino s) (me c) true) ->
    th s' = upd (th s) t (TMap o (nxt s)) -> change c s l s'
| ch_unlink t o : (exists r, th s t = TUnl o r) \/ th s t = TStale o -> info s' = info s -> nxt s' = nxt s ->
    files s' = upd (files s) (opath o) None -> nino s' = nino s -> change c s l s'
| ch_other p : l = LOther p None -> info s' = info s -> nxt s' = nxt s ->
    files s' = upd (files s) p None -> nino s' = nino s -> change c s l s'
| ch_make p u : l = LOther p (Some u) -> files s p = None -> info s' = info s -> nxt s' = nxt s ->
    files s' = upd (files s) p (Some (mkFile (nino s) u)) -> nino s' = S (nino s) -> change c s l s'.

Lemma change_step c s l s' : inv c s -> apply c s l = Some s' -> change c s l s'.
Proof.
  intros V. unfold apply. destruct (dead s); [discriminate|].
  destruct l as [t1 o1|t1 ok|r|t1 r|p [u|]].
  - destruct (th s t1); try discriminate. intros [= <-]. now apply ch_none.
  - unfold thread_step. assert (T := i_tok _ _ V t1). destruct (th s t1) eqn:ET; try discriminate; cbn in T;
      try (intros [= <-]; now apply ch_none).
    + destruct (lockh s); try discriminate. intros [= <-]. now apply ch_none.
    + intros [= <-]. destruct (looked_facts c s t1 o V) as (A & B & C & D & _). now apply ch_none.
    + intros [= <-]. unfold fs_step. destruct o; cbn [opath]; try (now apply ch_none); destruct (files s p) eqn:F; destruct ok;
        try (now apply ch_none); try (eapply ch_open; eauto; cbn; congruence); try (eapply ch_create; eauto; reflexivity).
    + intros [= <-]. unfold map_step. destruct (reg s (key c (rpath (info s r)))); now apply ch_none.
    + intros [= <-]. unfold ins_step. destruct (fmap s (opath o)); [|destruct o]; now apply ch_none.
    + intros [= <-]. unfold check_step. destruct (admitted c (ruid (info s r)) (allowed o)); now apply ch_none.
    + intros [= <-]. eapply ch_unlink; eauto.
    + intros [= <-]. destruct (Nat.ltb 0 (held s r)); now apply ch_none.
    + intros [= <-]. eapply ch_unlink; eauto.
  - destruct (Nat.ltb 0 (held s r)); [|discriminate]. intros [= <-]. now apply ch_none.
  - destruct (th s t1) eqn:E; try discriminate. destruct (Nat.ltb 0 (held s r)); [|discriminate]. intros [= <-].
    unfold release. destruct (Nat.eqb (held s r) 1 && negb (is_some r (lock_temp s))); now apply ch_none.
  - destruct (files s p) eqn:F; [discriminate|]. intros [= <-]. eapply ch_make; eauto; reflexivity.
  - intros [= <-]. eapply ch_other; eauto; reflexivity.
Qed.

(** Only calls of Remove and RemoveStaleArtefacts unlink. *)
Lemma unl_op c s t o : inv c s -> (exists r, th s t = TUnl o r) \/ th s t = TStale o -> call_of (th s t) = Some o.
Proof. intros V [(r & E)|E]; now rewrite E. Qed.

(** Every call that is going to unlink is a Remove or RemoveStaleArtefacts. *)
Definition kinds (s : st) : Prop :=
  forall t o, ((exists r, th s t = TUnl o r) -> exists p, o = Remove p) /\ (th s t = TStale o -> exists p, o = RemoveStale p).

Lemma looked_at s t o : th s t = TLook o ->
  (forall r o', th (looked s t o) t = TUnl o' r -> o' = o /\ exists p, o = Remove p) /\
  (forall o', th (looked s t o) t = TStale o' -> o' = o /\ exists p, o = RemoveStale p).
Proof.
  intros ET. unfold looked, lookup. destruct (fmap s (opath o)) as [r|]; [destruct (Nat.ltb 0 (held s r))|];
    destruct o; cbn; rewrite ?upd_eq, ?ET; cbn; (split; intros; try discriminate);
    match goal with H : _ = _ |- _ => injection H; intros; subst; eauto end.
Qed.

Lemma kinds_step c s l s' : inv c s -> kinds s -> apply c s l = Some s' -> kinds s'.
Proof.
  intros V K. unfold apply. destruct (dead s); [discriminate|].
  assert (G : forall s1 t1 x, (forall t, th s1 t = upd (th s) t1 x t) ->
     (forall o r, x = TUnl o r -> exists p, o = Remove p) -> (forall o, x = TStale o -> exists p, o = RemoveStale p) -> kinds s1).
  { intros s1 t1 x TH A B t o. rewrite TH. destruct (Nat.eq_dec t t1) as [->|N]; [rewrite upd_eq|rewrite upd_neq by exact N; apply K].
    split; [intros (r & E); eauto|eauto]. }
  assert (G0 : forall s1, th s1 = th s -> kinds s1) by (intros s1 E t o; rewrite E; apply K).
  destruct l as [t1 o1|t1 ok|r|t1 r|p [u|]].
  - destruct (th s t1); try discriminate. intros [= <-]. eapply G; [reflexivity|..]; discriminate.
  - unfold thread_step. destruct (th s t1) eqn:ET; try discriminate;
      try (intros [= <-]; eapply G; [reflexivity|..]; discriminate).
    + destruct (lockh s); try discriminate. intros [= <-]. eapply G; [reflexivity|..]; discriminate.
    + intros [= <-]. destruct (looked_facts c s t1 o V) as (_ & _ & _ & _ & TH). destruct (looked_at s t1 o ET) as [A B].
      intros t o'. destruct (Nat.eq_dec t t1) as [->|N]; [|rewrite TH by exact N; apply K].
      split; [intros (r & E); apply A in E as (-> & E); auto|intros E; apply B in E as (-> & E); auto].
    + intros [= <-]. unfold fs_step. destruct o; cbn [opath]; try (now apply G0); destruct (files s p); destruct ok;
        try (now apply G0); (eapply G; [reflexivity|..]; discriminate).
    + intros [= <-]. unfold map_step. destruct (reg s (key c (rpath (info s r)))); [now apply G0|].
      eapply G; [reflexivity|..]; discriminate.
    + intros [= <-]. unfold ins_step. destruct (fmap s (opath o)); [now apply G0|destruct o; (eapply G; [reflexivity|..]; discriminate)].
    + intros [= <-]. unfold check_step. destruct (admitted c (ruid (info s r)) (allowed o)); (eapply G; [reflexivity|..]; discriminate).
    + intros [= <-]. destruct (Nat.ltb 0 (held s r)); (eapply G; [reflexivity|..]; discriminate).
  - destruct (Nat.ltb 0 (held s r)); [|discriminate]. intros [= <-]. now apply G0.
  - destruct (th s t1) eqn:E; try discriminate. destruct (Nat.ltb 0 (held s r)); [|discriminate]. intros [= <-].
    unfold release. destruct (Nat.eqb (held s r) 1 && negb (is_some r (lock_temp s))); [|now apply G0].
    eapply G; [reflexivity|..]; discriminate.
  - destruct (files s p); [discriminate|]. intros [= <-]. now apply G0.
  - intros [= <-]. now apply G0.
Qed.

(** Nobody unlinks path [p]; so every resource of [p] maps the one object linked there. *)
Record qinv (p : nat) (s : st) : Prop := mkQ {
  q_call : forall t, call_of (th s t) <> Some (Remove p) /\ call_of (th s t) <> Some (RemoveStale p);
  q_one : forall r, r < nxt s -> rpath (info s r) = p ->
            exists f, files s p = Some f /\ ino f = rino (info s r) /\ fuid f = ruid (info s r)
}.

Lemma qinv_init p : qinv p init.
Proof. split; cbn; intros; [split; discriminate|lia]. Qed.

Lemma link_step c p s l s' f :
  inv c s -> kinds s -> (forall t, call_of (th s t) <> Some (Remove p) /\ call_of (th s t) <> Some (RemoveStale p)) ->
  ~ unlinks p l -> apply c s l = Some s' -> files s p = Some f -> files s' p = Some f.
Proof.
  intros V K Q U A F. destruct (change_step _ _ _ _ V A) as [_ _ E _|t o f' w ET Ff E _ _ _ _ _ _|t o ET Ff E _ _ _ _|t o ET _ _ E _|q L _ _ E _|q u L Fq _ _ E _]; rewrite E; auto.
  - destruct (Nat.eq_dec p (opath o)) as [->|N]; [congruence|now rewrite upd_neq].
  - destruct (Nat.eq_dec p (opath o)) as [->|N]; [|now rewrite upd_neq]. exfalso.
    assert (C := unl_op _ _ _ _ V ET). destruct (K t o) as [K1 K2], (Q t) as [Q1 Q2].
    destruct ET as [ET|ET]; [destruct (K1 ET) as (q & ->)|destruct (K2 ET) as (q & ->)]; cbn in *; congruence.
  - destruct (Nat.eq_dec p q) as [->|N]; [|now rewrite upd_neq]. exfalso. apply U. right. right. exact L.
  - destruct (Nat.eq_dec p q) as [->|N]; [congruence|now rewrite upd_neq].
Qed.

Lemma qcall_step c p s l s' :
  inv c s -> (forall t, call_of (th s t) <> Some (Remove p) /\ call_of (th s t) <> Some (RemoveStale p)) ->
  ~ unlinks p l -> apply c s l = Some s' ->
  forall t, call_of (th s' t) <> Some (Remove p) /\ call_of (th s' t) <> Some (RemoveStale p).
Proof.
  intros V Q U A t. destruct (Q t) as [Q1 Q2].
  split; intros E; destruct (call_step _ _ _ _ _ _ V A E) as [E'|E']; auto; apply U; [left|right; left]; eauto.
Qed.

Lemma qinv_step c p s l s' : inv c s -> kinds s -> qinv p s -> ~ unlinks p l -> apply c s l = Some s' -> qinv p s'.
Proof.
  intros V K Q U A. split.
  - eapply qcall_step; eauto. apply Q.
  - intros r L R.
    assert (OLD : r < nxt s -> info s' r = info s r ->
      exists f, files s' p = Some f /\ ino f = rino (info s' r) /\ fuid f = ruid (info s' r)).
    { intros L' E. rewrite E in *. destruct (q_one _ _ Q r L' R) as (f & F & X). exists f. split; auto.
      apply (link_step c p s l); auto. apply Q. }
    destruct (change_step _ _ _ _ V A) as [E1 E2 E3 _|t o f' w ET Ff E3 _ E2 E1 _ _ _|t o ET Ff E3 _ E2 E1 _|t o ET E1 E2 E _|q LL E1 E2 E _|q u LL Fq E1 E2 E _].
    + apply OLD; [lia|now rewrite E1].
    + destruct (Nat.eq_dec r (nxt s)) as [->|N]; [|apply OLD; [lia|now rewrite E1, upd_neq]].
      rewrite E1, upd_eq in *. cbn in *. exists f'. rewrite E3, <- R. auto.
    + destruct (Nat.eq_dec r (nxt s)) as [->|N]; [|apply OLD; [lia|now rewrite E1, upd_neq]].
      rewrite E1, upd_eq in *. cbn in *. eexists. rewrite E3, <- R, upd_eq. split; [reflexivity|auto].
    + apply OLD; [lia|now rewrite E1].
    + apply OLD; [lia|now rewrite E1].
    + apply OLD; [lia|now rewrite E1].
Qed.

Lemma kinds_init : kinds init.
Proof. intros t o. cbn. split; [intros (r & E); discriminate|discriminate]. Qed.

Lemma kinds_run c ls : forall s s', inv c s -> kinds s -> run c s ls = Some s' -> kinds s'.
Proof.
  induction ls as [|l ls IH]; cbn; intros s s' V K E; [injection E as <-; assumption|].
  destruct (apply c s l) as [s1|] eqn:A; [|discriminate]. apply (IH s1); eauto using inv_step, kinds_step.
Qed.

Lemma qinv_run c p ls : forall s s', inv c s -> kinds s -> qinv p s -> never_unlinked p ls -> run c s ls = Some s' -> qinv p s'.
Proof.
  induction ls as [|l ls IH]; cbn; intros s s' V K Q U E; [injection E as <-; assumption|].
  destruct (apply c s l) as [s1|] eqn:A; [|discriminate].
  apply (IH s1); eauto using inv_step, kinds_step.
  - eapply qinv_step; eauto. apply U. now left.
  - intros l' I. apply U. now right.
Qed.

Lemma link_run c p f ls : forall s s', inv c s -> kinds s ->
  (forall t, call_of (th s t) <> Some (Remove p) /\ call_of (th s t) <> Some (RemoveStale p)) ->
  never_unlinked p ls -> run c s ls = Some s' -> files s p = Some f -> files s' p = Some f.
Proof.
  induction ls as [|l ls IH]; cbn; intros s s' V K Q U E F; [injection E as <-; assumption|].
  destruct (apply c s l) as [s1|] eqn:A; [|discriminate].
  assert (U1 : ~ unlinks p l) by (apply U; now left).
  apply (IH s1); eauto using inv_step, kinds_step, qcall_step, link_step.
  intros l' I. apply U. now right.
Qed.

(** Nobody asks for read-only memory at [p]. *)
Record winv (p : nat) (s : st) : Prop := mkW {
  w_call : forall t al, call_of (th s t) <> Some (Open p false al);
  w_all : forall r, r < nxt s -> rpath (info s r) = p -> rwr (info s r) = true
}.

Lemma winv_step c p s l s' : inv c s -> winv p s -> (forall t al, l <> LCall t (Open p false al)) ->
  apply c s l = Some s' -> winv p s'.
Proof.
  intros V W U A. split.
  - intros t al E. destruct (call_step _ _ _ _ _ _ V A E) as [E'|E']; [exact (w_call _ _ W _ _ E')|exact (U _ _ E')].
  - intros r L R.
    assert (OLD : r < nxt s -> info s' r = info s r -> rwr (info s' r) = true).
    { intros L' E. rewrite E in *. now apply (w_all _ _ W). }
    destruct (change_step _ _ _ _ V A) as [E1 E2 E3 _|t o f' w ET Ff E3 _ E2 E1 EW _ NC|t o ET Ff E3 _ E2 E1 _|t o ET E1 E2 E _|q LL E1 E2 E _|q u LL Fq E1 E2 E _];
      try (apply OLD; [lia|now rewrite E1]).
    + destruct (Nat.eq_dec r (nxt s)) as [->|N]; [|apply OLD; [lia|now rewrite E1, upd_neq]].
      rewrite E1, upd_eq in *. cbn in *. subst w. assert (T := i_tok _ _ V t). rewrite ET in T. destruct T as [O _].
      destruct o; cbn in *; auto; try discriminate. destruct rw; auto. exfalso. subst p0.
      apply (w_call _ _ W t al). now rewrite ET.
    + destruct (Nat.eq_dec r (nxt s)) as [->|N]; [|apply OLD; [lia|now rewrite E1, upd_neq]].
      now rewrite E1, upd_eq.
Qed.

Lemma winv_run c p ls : forall s s', inv c s -> winv p s -> never_read_only p ls -> run c s ls = Some s' -> winv p s'.
Proof.
  induction ls as [|l ls IH]; cbn; intros s s' V W U E; [injection E as <-; assumption|].
  destruct (apply c s l) as [s1|] eqn:A; [|discriminate].
  apply (IH s1); eauto using inv_step.
  - eapply winv_step; eauto. intros t al ->. apply (U t al). now left.
  - intros t al I. apply (U t al). now right.
Qed.

(** A created object is new. *)
Record ninv (c : cfg) (s : st) : Prop := mkN {
  n_file : forall p f, files s p = Some f -> ino f < nino s;
  n_res : forall r, r < nxt s -> rino (info s r) < nino s;
  n_new : forall t p r, th s t = TMap (Create p) r \/ th s t = TIns (Create p) r ->
     rwr (info s r) = true /\ ruid (info s r) = me c /\
     forall r', r' < nxt s -> rino (info s r') = rino (info s r) -> r' = r
}.

Lemma ninv_init c : ninv c init.
Proof. split; cbn; intros; try discriminate; try lia. destruct H; discriminate. Qed.

Lemma new_stage c s l s' t p r : inv c s -> apply c s l = Some s' ->
  th s' t = TMap (Create p) r \/ th s' t = TIns (Create p) r ->
  (th s t = TMap (Create p) r \/ th s t = TIns (Create p) r) \/
  (th s t = TFs (Create p) /\ th s' t = TMap (Create p) r /\ r = nxt s).
Proof.
  intros V. unfold apply. destruct (dead s); [discriminate|].
  assert (G : forall s1 t1 x, (forall t, th s1 t = upd (th s) t1 x t) ->
     (x = TIns (Create p) r -> th s t1 = TMap (Create p) r) ->
     (x = TMap (Create p) r -> th s t1 = TFs (Create p) /\ r = nxt s) ->
     th s1 t = TMap (Create p) r \/ th s1 t = TIns (Create p) r ->
     (th s t = TMap (Create p) r \/ th s t = TIns (Create p) r) \/
     (th s t = TFs (Create p) /\ th s1 t = TMap (Create p) r /\ r = nxt s)).
  { intros s1 t1 x TH A B. rewrite TH. destruct (Nat.eq_dec t t1) as [->|N]; [rewrite upd_eq|rewrite upd_neq by exact N; auto].
    intros [E|E]; [destruct (B E); auto|auto]. }
  destruct l as [t1 o1|t1 ok|r1|t1 r1|q [u|]].
  - destruct (th s t1); try discriminate. intros [= <-]. eapply G; [reflexivity|..]; discriminate.
  - unfold thread_step. destruct (th s t1) eqn:ET; try discriminate;
      try (intros [= <-]; eapply G; [reflexivity|..]; discriminate).
    + destruct (lockh s); try discriminate. intros [= <-]. eapply G; [reflexivity|..]; discriminate.
    + intros [= <-]. destruct (looked_facts c s t1 o V) as (_ & _ & _ & _ & TH).
      destruct (Nat.eq_dec t t1) as [->|N]; [|rewrite TH by exact N; auto].
      unfold looked, lookup. destruct (fmap s (opath o)) as [r2|]; [destruct (Nat.ltb 0 (held s r2))|];
        destruct o; cbn; rewrite ?upd_eq, ?ET; intros [E|E]; discriminate.
    + intros [= <-]. unfold fs_step. destruct o; cbn [opath]; auto; destruct (files s p0); destruct ok; auto;
        (eapply G; [reflexivity|..]; try discriminate; intros E; injection E; intros; subst; auto).
    + intros [= <-]. unfold map_step. destruct (reg s (key c (rpath (info s r0)))); [auto|].
      eapply G; [reflexivity|..]; [intros E; injection E; intros; subst; auto|discriminate].
    + intros [= <-]. unfold ins_step. destruct (fmap s (opath o)); [auto|destruct o; (eapply G; [reflexivity|..]; discriminate)].
    + intros [= <-]. unfold check_step. destruct (admitted c (ruid (info s r0)) (allowed o)); (eapply G; [reflexivity|..]; discriminate).
    + intros [= <-]. destruct (Nat.ltb 0 (held s r0)); (eapply G; [reflexivity|..]; discriminate).
  - destruct (Nat.ltb 0 (held s r1)); [|discriminate]. intros [= <-]. auto.
  - destruct (th s t1) eqn:E; try discriminate. destruct (Nat.ltb 0 (held s r1)); [|discriminate]. intros [= <-].
    unfold release. destruct (Nat.eqb (held s r1) 1 && negb (is_some r1 (lock_temp s))); [|auto].
    eapply G; [reflexivity|..]; discriminate.
  - destruct (files s q); [discriminate|]. intros [= <-]. auto.
  - intros [= <-]. auto.
Qed.

Lemma ninv_step c s l s' : inv c s -> ninv c s -> apply c s l = Some s' -> ninv c s'.
Proof.
  intros V W A. assert (ST := fun t p r => new_stage c s l s' t p r V A).
  assert (LT : forall t p r, th s t = TMap (Create p) r \/ th s t = TIns (Create p) r -> r < nxt s /\ crit (th s t) = true).
  { intros t p r [E|E]; assert (T := i_tok _ _ V t); rewrite E in *; cbn in T; split; auto; tauto. }
  destruct (change_step _ _ _ _ V A) as [E1 E2 E3 E4|t o f' w ET Ff E3 E4 E2 E1 EW TH NC|t o ET Ff E3 E4 E2 E1 TH|t o ET E1 E2 E3 E4|q LL E1 E2 E3 E4|q u LL Fq E1 E2 E3 E4].
  - split.
    + intros p f. rewrite E3, E4. apply W.
    + intros r. rewrite E1, E2, E4. apply W.
    + intros t p r H. rewrite E1, E2. destruct (ST t p r H) as [H'|(H1 & H2 & H3)]; [exact (n_new _ _ W _ _ _ H')|].
      exfalso. assert (V' := inv_step _ _ _ _ V A). assert (T := i_tok _ _ V' t). rewrite H2 in T. cbn in T.
      destruct T as (_ & _ & L & _). rewrite E2 in L. lia.
  - split.
    + intros p f. rewrite E3, E4. apply W.
    + intros r L. rewrite E4, E1. rewrite E2 in L. destruct (Nat.eq_dec r (nxt s)) as [->|N]; [rewrite upd_eq; cbn; eapply W; eauto|].
      rewrite upd_neq by exact N. apply W. lia.
    + intros t' p r H. destruct (ST t' p r H) as [H'|(H1 & H2 & H3)].
      * exfalso. destruct (LT _ _ _ H') as [_ C]. apply (crit_lock _ _ _ V) in C.
        assert (C' : crit (th s t) = true) by now rewrite ET. apply (crit_lock _ _ _ V) in C'. rewrite C in C'. injection C' as ->.
        rewrite ET in H'. destruct H'; discriminate.
      * exfalso. rewrite TH in H2. destruct (Nat.eq_dec t' t) as [->|N]; [rewrite upd_eq in H2; injection H2; intros _ X; exact (NC _ X)|].
        rewrite upd_neq in H2 by exact N. congruence.
  - split.
    + intros p f. rewrite E3, E4. destruct (Nat.eq_dec p (opath o)) as [->|N]; [rewrite upd_eq; intros [= <-]; cbn; lia|].
      rewrite upd_neq by exact N. intros F. apply (n_file _ _ W) in F. lia.
    + intros r L. rewrite E4, E1. rewrite E2 in L. destruct (Nat.eq_dec r (nxt s)) as [->|N]; [rewrite upd_eq; cbn; lia|].
      rewrite upd_neq by exact N. assert (X := n_res _ _ W r ltac:(lia)). lia.
    + intros t' p r H. destruct (ST t' p r H) as [H'|(H1 & H2 & H3)].
      * exfalso. destruct (LT _ _ _ H') as [_ C]. apply (crit_lock _ _ _ V) in C.
        assert (C' : crit (th s t) = true) by now rewrite ET. apply (crit_lock _ _ _ V) in C'. rewrite C in C'. injection C' as ->.
        rewrite ET in H'. destruct H'; discriminate.
      * subst r. rewrite E1, E2, upd_eq. cbn. repeat split; auto.
        intros r' L'. destruct (Nat.eq_dec r' (nxt s)) as [->|N]; auto. rewrite upd_neq by exact N.
        intros X. assert (Y := n_res _ _ W r' ltac:(lia)). lia.
  - split.
    + intros p f. rewrite E3, E4. destruct (Nat.eq_dec p (opath o)) as [->|N]; [rewrite upd_eq; discriminate|rewrite upd_neq by exact N; apply W].
    + intros r. rewrite E1, E2, E4. apply W.
    + intros t' p r H. rewrite E1, E2. destruct (ST t' p r H) as [H'|(H1 & H2 & H3)]; [exact (n_new _ _ W _ _ _ H')|].
      exfalso. assert (V' := inv_step _ _ _ _ V A). assert (T := i_tok _ _ V' t'). rewrite H2 in T. cbn in T.
      destruct T as (_ & _ & L & _). rewrite E2 in L. lia.
  - split.
    + intros p f. rewrite E3, E4. destruct (Nat.eq_dec p q) as [->|N]; [rewrite upd_eq; discriminate|rewrite upd_neq by exact N; apply W].
    + intros r. rewrite E1, E2, E4. apply W.
    + intros t' p r H. rewrite E1, E2. destruct (ST t' p r H) as [H'|(H1 & H2 & H3)]; [exact (n_new _ _ W _ _ _ H')|].
      exfalso. assert (V' := inv_step _ _ _ _ V A). assert (T := i_tok _ _ V' t'). rewrite H2 in T. cbn in T.
      destruct T as (_ & _ & L & _). rewrite E2 in L. lia.
  - split.
    + intros p f. rewrite E3, E4. destruct (Nat.eq_dec p q) as [->|N]; [rewrite upd_eq; intros [= <-]; cbn; lia|].
      rewrite upd_neq by exact N. intros F. apply (n_file _ _ W) in F. lia.
    + intros r L. rewrite E1, E2, E4 in *. assert (X := n_res _ _ W r L). lia.
    + intros t' p r H. rewrite E1, E2. destruct (ST t' p r H) as [H'|(H1 & H2 & H3)]; [exact (n_new _ _ W _ _ _ H')|].
      exfalso. assert (V' := inv_step _ _ _ _ V A). assert (T := i_tok _ _ V' t'). rewrite H2 in T. cbn in T.
      destruct T as (_ & _ & L & _). rewrite E2 in L. lia.
Qed.

Lemma ninv_run c ls : forall s s', inv c s -> ninv c s -> run c s ls = Some s' -> ninv c s'.
Proof.
  induction ls as [|l ls IH]; cbn; intros s s' V K E; [injection E as <-; assumption|].
  destruct (apply c s l) as [s1|] eqn:A; [|discriminate]. apply (IH s1); eauto using inv_step, ninv_step.
Qed.
