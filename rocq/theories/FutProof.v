(** Invariants of the futures of message passing. *)
From Coq Require Import List Bool Arith Lia.
From Verif Require Import FutModel FutSpec.
Import ListNotations.

Lemma run_app : forall ls1 ls2 s, run s (ls1 ++ ls2) = run (run s ls1) ls2.
Proof. intros. apply fold_left_app. Qed.
Lemma run_cons : forall l ls s, run s (l :: ls) = run (step s l) ls.
Proof. reflexivity. Qed.

Definition holds (p : mpc) : bool := match p with MReady | MNotify | MUnlock => true | _ => false end.
Definition over (p : mpc) : bool := match p with MNotify | MUnlock | MDone => true | _ => false end.
Definition written (p : mpc) : bool := match p with MLock | MReady | MNotify | MUnlock | MDone => true | _ => false end.
Definition past (p : wpc) : bool := match p with WRead | WDone | WGone => true | _ => false end.

(** The state of one future, given the holder of the mutex. *)
Record ok (m : option holder) (i : nat) (x : fut) : Prop := {
  o_w : m = Some (Waiter i) <-> wp x = WCheck;
  o_m : m = Some (Marker i) <-> holds (mp x) = true;
  o_ready : ready x = over (mp x);
  o_past : past (wp x) = true -> mp x = MDone;
  o_alive : alive x = match wp x with WNone | WGone | WLeft => false | _ => true end;
  o_left : wp x = WLeft -> mp x = MNone;
  o_none : wp x = WNone -> mp x = MNone;
  o_block : wp x = WBlocked -> ready x = false \/ mp x = MNotify;
  o_value : written (mp x) = true -> given x = Some (value x);
  o_given : given x = None <-> mp x = MNone;
  o_mval : forall v, mp x = MValue v -> given x = Some v;
  o_got : match wp x with WDone | WGone => got x = given x | _ => got x = None end }.

Definition inv (s : st) : Prop := ub s = false /\ forall i, ok (mutex s) i (futs s i).

Lemma inv_init : inv init.
Proof. split; [reflexivity|]. intros i. split; cbn; try tauto; try discriminate; split; congruence. Qed.

(** The other futures are not touched when the mutex does not change hands from or to their threads. *)
Lemma ok_other : forall m m' i x, ok m i x ->
  (m = Some (Waiter i) <-> m' = Some (Waiter i)) -> (m = Some (Marker i) <-> m' = Some (Marker i)) -> ok m' i x.
Proof. intros m m' i x [] H1 H2. split; auto; tauto. Qed.

Lemma ok_wake : forall m i x, ok m i x -> ok m i (wake x).
Proof.
  intros m i x O. unfold wake. destruct (wp x) eqn:W; auto. destruct O as [O1 O2 O3 O4 O5 OL O6 O7 O8 O9 O10 O11].
  rewrite W in *. split; cbn; auto; try discriminate; try tauto. split; [|discriminate]. intros H. apply O1 in H. discriminate.
Qed.

Lemma upd_inv : forall s i x m, inv s -> ok m i x ->
  (forall j, j <> i -> (mutex s = Some (Waiter j) <-> m = Some (Waiter j)) /\ (mutex s = Some (Marker j) <-> m = Some (Marker j))) ->
  inv (set_mutex m (put s i x)).
Proof.
  intros s i x m [U H] O P. split; [exact U|]. intros j. cbn. unfold upd. destruct (Nat.eqb_spec i j) as [<-|N]; [exact O|].
  destruct (P j) as [P1 P2]; [auto|]. eapply ok_other; eauto.
Qed.

Lemma put_inv : forall s i x, inv s -> ok (mutex s) i x -> inv (put s i x).
Proof. intros s i x I1 O. apply (upd_inv s i x (mutex s) I1 O). intros. tauto. Qed.

Ltac fin O1 OL O6 O7 O9 :=
  try discriminate; try tauto; try congruence;
  try (let F := fresh in intros F; specialize (O6 F); discriminate);
  try (let F := fresh in intros F; specialize (OL F); discriminate);
  try (let F := fresh in destruct O9 as [O9 _]; split; [|discriminate]; intros F; specialize (O9 F); discriminate);
  try (split; discriminate);
  try (let F := fresh in split; [discriminate|]; intros F; apply O1 in F; congruence);
  try (let F := fresh in intros F; destruct (O7 F); [auto|discriminate]).

Lemma step_inv : forall s l, inv s -> orderly s l -> inv (step s l).
Proof.
  intros s l I1 HO. pose proof I1 as [U H]. destruct l; cbn [step orderly] in *; specialize (H i);
  destruct H as [O1 O2 O3 O4 O5 OL O6 O7 O8 O9 O10 O11].
  - destruct (wp (futs s i)) eqn:W; auto. apply put_inv; auto. specialize (O6 eq_refl). rewrite O6 in *.
    split; cbn; auto; try discriminate; try tauto.
    split; [intros F; apply O1 in F; discriminate|discriminate].
  - unfold step_w. destruct (wp (futs s i)) eqn:W; auto.
    + apply put_inv; auto. split; cbn; auto; try discriminate; try tauto.
      split; [intros F; apply O1 in F; discriminate|discriminate].
    + destruct (mutex s) eqn:M; auto. apply upd_inv; auto.
      * split; cbn; auto; try discriminate; try tauto.
        -- split; [discriminate|]. intros F. apply O2 in F. discriminate.
      * intros j N. rewrite M. split; split; congruence.
    + assert (mutex s = Some (Waiter i)) as M by (now apply O1). apply upd_inv; auto.
      * assert (holds (mp (futs s i)) = false) as NH.
        { destruct (holds (mp (futs s i))) eqn:F; auto. assert (mutex s = Some (Marker i)) by (now apply O2). congruence. }
        destruct (ready (futs s i)) eqn:R; split; cbn; auto; try discriminate; try tauto;
          try (split; discriminate); try (rewrite NH; split; discriminate).
        all: try (intros _; destruct (mp (futs s i)); cbn in *; congruence); try congruence.
      * intros j N. rewrite M. split; split; try congruence.
    + apply put_inv; auto. specialize (O4 eq_refl). rewrite O4 in *. split; cbn; rewrite ?O4; auto; try discriminate; try tauto.
      * split; [intros F; apply O1 in F; discriminate|discriminate].
      * symmetry. now apply O8.
  - destruct HO as [HO HL]. rewrite HO in *. destruct (wp (futs s i)) eqn:W; auto; try (specialize (O4 eq_refl); discriminate); try (now elim HL);
      apply put_inv; auto; split; cbn; rewrite ?W; auto; try discriminate; try tauto; try (split; discriminate).
    all: try (intros v0 F; congruence).
    all: intros F; destruct (O7 F); [auto|discriminate].
  - assert (forall P, mp (futs s i) = P -> P <> MNone -> P <> MDone -> alive (futs s i) = true) as AL.
    { intros P E N1 N2. rewrite O5. destruct (wp (futs s i)) eqn:W; auto.
      - rewrite (O6 eq_refl) in E. congruence.
      - rewrite (O4 eq_refl) in E. congruence.
      - rewrite (OL eq_refl) in E. congruence. }
    assert (mp (futs s i) <> MDone -> past (wp (futs s i)) = false) as NP
      by (intros F; destruct (past (wp (futs s i))) eqn:E; [elim F; auto|reflexivity]).
    unfold step_m. destruct (mp (futs s i)) eqn:P; auto; unfold access;
      try (assert (alive (futs s i) = true) as A1 by (apply (AL _ eq_refl); discriminate); rewrite ?A1);
      try specialize (NP ltac:(discriminate)).
    + apply put_inv; auto. split; cbn; rewrite ?P; auto; fin O1 OL O6 O7 O9.
    + destruct (mutex s) eqn:M; auto. apply upd_inv; auto.
      * split; cbn; auto; fin O1 OL O6 O7 O9.
      * intros j N. rewrite M. split; split; congruence.
    + apply put_inv; auto. split; cbn; auto; fin O1 OL O6 O7 O9.
    + assert (inv (put s i (set_mp MUnlock (set_wp (match wp (futs s i) with WBlocked => WLock | w => w end) (futs s i))))) as I2.
      { apply put_inv; auto. split; cbn; auto; try discriminate.
        - rewrite O1. destruct (wp (futs s i)); split; congruence.
        - destruct (wp (futs s i)); cbn in *; congruence.
        - destruct (wp (futs s i)); cbn in *; congruence.
        - intros F. destruct (wp (futs s i)) eqn:W; try discriminate. specialize (OL eq_refl). discriminate.
        - intros F. destruct (wp (futs s i)) eqn:W; try discriminate. specialize (O6 eq_refl). discriminate.
        - intros F. destruct (wp (futs s i)); discriminate.
        - destruct O9 as [O9 _]. split; [|discriminate]. intros F. specialize (O9 F). discriminate.
        - destruct (wp (futs s i)); auto. }
      destruct I2 as [_ I2]. split; [exact U|]. intros j. specialize (I2 j). cbn [futs put mutex notify_all] in *. unfold upd in *.
      destruct (Nat.eqb i j) eqn:E; [apply Nat.eqb_eq in E; subst j|now apply ok_wake]. unfold wake. cbn [wp set_mp].
      destruct (wp (futs s i)) eqn:W; unfold set_mp, set_wp in *; cbn in *; rewrite ?W; exact I2.
    + assert (mutex s = Some (Marker i)) as M by (now apply O2). apply upd_inv; auto.
      * split; cbn; auto; fin O1 OL O6 O7 O9.
      * intros j N. rewrite M. split; split; try congruence.
  - apply put_inv; auto. apply ok_wake. split; auto.
  - destruct (wp (futs s i)) eqn:W; auto. apply put_inv; auto. specialize (O4 eq_refl).
    split; cbn; auto; try discriminate; try tauto. split; [intros F; apply O1 in F; discriminate|discriminate].
  - destruct (wp (futs s i)) eqn:W; auto. apply put_inv; auto. rewrite HO in *.
    split; cbn; rewrite ?HO; auto; try discriminate; try tauto. split; [intros F; apply O1 in F; discriminate|discriminate].
Qed.

Lemma run_inv : forall ls s, inv s -> once s ls -> inv (run s ls).
Proof.
  induction ls as [|l r IH]; intros s I1 O; [exact I1|]. destruct O as [O1 O2]. rewrite run_cons. apply IH; [now apply step_inv|exact O2].
Qed.

(** ** Every wait for a marked future can come to its end by steps of the threads alone. *)
Definition started (s : st) (i : nat) : Prop := wp (futs s i) <> WNone /\ wp (futs s i) <> WNew /\ wp (futs s i) <> WLeft.

Lemma upd_same : forall f i x, upd f i x i = x.
Proof. intros. unfold upd. now rewrite Nat.eqb_refl. Qed.

Lemma keep : forall s l i, inv s -> own_step l -> started s i -> marked s i ->
  inv (step s l) /\ started (step s l) i /\ marked (step s l) i.
Proof.
  intros s l i I1 O S1 M1. split; [apply step_inv; [exact I1|destruct l; cbn; auto; destruct O]|].
  unfold started, marked in *. destruct l; cbn [step] in *; try (destruct O).
  - rename i0 into j. unfold step_w. destruct (wp (futs s j)) eqn:W; try (destruct (mutex s)); cbn; unfold upd; auto;
      destruct (Nat.eqb_spec j i) as [->|N]; cbn; auto; rewrite ?W in *; repeat split; try tauto; try discriminate;
      try (destruct (ready (futs s i)); discriminate).
  - rename i0 into j. unfold step_m, access. destruct (mp (futs s j)) eqn:P; try (destruct (mutex s)); try (destruct (alive (futs s j))); cbn; auto;
      unfold upd, wake;
      destruct (Nat.eqb_spec j i) as [->|N]; cbn; auto; try (destruct (wp (futs s i)) eqn:W; cbn; rewrite ?W; repeat split; auto; discriminate || tauto).
Qed.

Lemma keeps : forall ls s i, inv s -> Forall own_step ls -> started s i -> marked s i ->
  inv (run s ls) /\ started (run s ls) i /\ marked (run s ls) i.
Proof.
  induction ls as [|l r IH]; intros s i I1 F S1 M1; [auto|]. inversion F as [|a b F1 F2]; subst. rewrite run_cons.
  destruct (keep s l i I1 F1 S1 M1) as (A & B & C). now apply IH.
Qed.

Definition mrank (p : mpc) : nat :=
  match p with MNone => 6 | MValue _ => 5 | MLock => 4 | MReady => 3 | MNotify => 2 | MUnlock => 1 | MDone => 0 end.

Lemma marker_alive : forall s i, inv s -> marked s i -> mp (futs s i) <> MDone -> alive (futs s i) = true.
Proof.
  intros s i [_ H] M1 N. destruct (H i) as [O1 O2 O3 O4 O5 OL O6 O7 O8 O9 O10 O11]. rewrite O5.
  destruct (wp (futs s i)) eqn:W; try reflexivity; exfalso; [apply M1; auto|apply N; auto|apply M1; auto].
Qed.

Lemma mark_ends : forall n s i, inv s -> mrank (mp (futs s i)) = n -> marked s i ->
  (mutex s = None \/ mutex s = Some (Marker i)) ->
  exists ls, Forall own_step ls /\ mp (futs (run s ls) i) = MDone /\ mutex (run s ls) = None.
Proof.
  induction n as [|n IH]; intros s i I1 R M1 X.
  - destruct (mp (futs s i)) eqn:P; try discriminate. exists []. cbn. repeat split; auto. destruct X as [X|X]; auto.
    destruct I1 as [_ H]. apply (o_m _ _ _ (H i)) in X. rewrite P in X. discriminate.
  - assert (mp (futs s i) <> MDone) as N by (intros F; rewrite F in R; discriminate).
    pose proof (marker_alive s i I1 M1 N) as A.
    assert (inv (step s (LM i))) as I2 by (apply step_inv; cbn; auto).
    assert (mrank (mp (futs (step s (LM i)) i)) = n /\ marked (step s (LM i)) i /\
            (mutex (step s (LM i)) = None \/ mutex (step s (LM i)) = Some (Marker i))) as (R2 & M2 & X2).
    { destruct I1 as [_ H]. pose proof (o_m _ _ _ (H i)) as OM. unfold marked. cbn [step]. unfold step_m, access. rewrite A.
      destruct (mp (futs s i)) eqn:P; cbn in R, OM; try (elim M1; exact P).
      - cbn. rewrite upd_same. cbn. repeat split; auto; try lia; discriminate.
      - destruct X as [X|X]; [|apply OM in X; discriminate]. rewrite X. cbn. rewrite upd_same. cbn. repeat split; auto; try lia; discriminate.
      - cbn. rewrite upd_same. cbn. repeat split; auto; try lia; discriminate.
      - cbn. rewrite upd_same. unfold wake. cbn. destruct (wp (futs s i)); cbn; repeat split; auto; try lia; discriminate.
      - cbn. rewrite upd_same. cbn. repeat split; auto; try lia; discriminate.
      - elim N. reflexivity. }
    destruct (IH (step s (LM i)) i I2 R2 M2 X2) as (ls & F & E1 & E2). exists (LM i :: ls). split; [constructor; [exact I|exact F]|]. rewrite run_cons. auto.
Qed.

Lemma released : forall s, inv s -> exists ls, Forall own_step ls /\ mutex (run s ls) = None.
Proof.
  intros s I1. pose proof I1 as [_ H]. destruct (mutex s) as [[j|j]|] eqn:M.
  - exists [LW j]. split; [constructor; [exact I|constructor]|]. cbn. unfold step_w.
    assert (wp (futs s j) = WCheck) as -> by (apply (o_w _ _ _ (H j)); reflexivity). reflexivity.
  - destruct (mark_ends _ s j I1 eq_refl) as (ls & F & _ & E).
    + intros Q. pose proof (proj1 (o_m _ _ _ (H j)) eq_refl) as Z. rewrite Q in Z. discriminate.
    + now right.
    + exists ls. auto.
  - exists []. auto.
Qed.

Lemma wait_ends : forall s i, inv s -> started s i -> mp (futs s i) = MDone -> mutex s = None ->
  returned (run s [LW i; LW i; LW i]) i.
Proof.
  intros s i [_ H] (S1 & S2 & S3) P M. destruct (H i) as [O1 O2 O3 O4 O5 OL O6 O7 O8 O9 O10 O11]. rewrite P in O3. cbn in O3.
  unfold returned. cbn [run fold_left step]. destruct (wp (futs s i)) eqn:W; try tauto.
  - left. unfold step_w at 3. rewrite W, M. unfold step_w at 2. cbn. rewrite upd_same. cbn. rewrite O3. unfold step_w. cbn. rewrite !upd_same. cbn. rewrite upd_same. reflexivity.
  - pose proof (proj2 O1 eq_refl). congruence.
  - destruct (O7 eq_refl); congruence.
  - left. unfold step_w at 3. rewrite W. unfold step_w at 2. cbn. rewrite upd_same. cbn. unfold step_w. cbn. rewrite upd_same. cbn. rewrite upd_same. reflexivity.
  - left. unfold step_w at 3. rewrite W. unfold step_w at 2. rewrite W. unfold step_w. rewrite W. exact W.
  - right. unfold step_w at 3. rewrite W. unfold step_w at 2. rewrite W. unfold step_w. rewrite W. exact W.
Qed.

Lemma all_end : forall s i, inv s -> started s i -> marked s i ->
  exists ls, Forall own_step ls /\ returned (run s ls) i.
Proof.
  intros s i I1 S1 M1. destruct (released s I1) as (l1 & F1 & E1). destruct (keeps l1 s i I1 F1 S1 M1) as (I2 & S2 & M2).
  destruct (mark_ends _ (run s l1) i I2 eq_refl M2 (or_introl E1)) as (l2 & F2 & E2 & E3).
  destruct (keeps l2 _ i I2 F2 S2 M2) as (I3 & S3 & M3).
  pose proof (wait_ends _ i I3 S3 E2 E3) as R. exists (l1 ++ l2 ++ [LW i; LW i; LW i]). split.
  - apply Forall_app. split; [exact F1|]. apply Forall_app. split; [exact F2|]. repeat constructor.
  - rewrite !run_app. exact R.
Qed.

(** The value read was given to a mark of that future. *)
Lemma given_marked : forall ls i v, given (futs (run init ls) i) = Some v -> In (LMark i v) ls.
Proof.
  induction ls as [|l r IH] using rev_ind; intros i v H; [discriminate|]. apply in_or_app. rewrite run_app in H. cbn [run fold_left] in H.
  fold (run init r) in H. revert H IH. generalize (run init r). intros s H IH.
  assert (given (futs s i) = Some v \/ l = LMark i v) as [G|G]; [|left; now apply IH|right; left; auto].
  clear IH. destruct l; cbn [step] in H.
  - destruct (wp (futs s i0)); auto. cbn in H. unfold upd in H. destruct (Nat.eqb i0 i); auto. discriminate.
  - unfold step_w in H. destruct (wp (futs s i0)) eqn:W; auto; try (destruct (mutex s); auto); cbn in H; unfold upd in H; destruct (Nat.eqb_spec i0 i) as [->|]; auto.
  - destruct (wp (futs s i0)) eqn:W; auto; destruct (mp (futs s i0)) eqn:P; auto; cbn in H; unfold upd in H;
      destruct (Nat.eqb_spec i0 i) as [->|]; auto; cbn in H; right; congruence.
  - unfold step_m, access in H. destruct (mp (futs s i0)) eqn:P; auto; try (destruct (mutex s); auto); try (destruct (alive (futs s i0)); auto);
      cbn in H; unfold upd, wake in H; destruct (Nat.eqb_spec i0 i) as [->|]; auto; try (destruct (wp (futs s i)); cbn in H; auto);
      cbn in H; try (destruct (wp (futs s i)); auto); auto.
  - cbn in H. unfold upd, wake in H. destruct (Nat.eqb_spec i0 i) as [->|]; auto. destruct (wp (futs s i)); auto.
  - destruct (wp (futs s i0)) eqn:W; auto. cbn in H. unfold upd in H. destruct (Nat.eqb_spec i0 i) as [->|]; auto.
  - destruct (wp (futs s i0)) eqn:W; auto. cbn in H. unfold upd in H. destruct (Nat.eqb_spec i0 i) as [->|]; auto.
Qed.
