(** C71: shared memory is never used before it is initialised; C72: the death of a process does not
    keep others from opening shared memory. *)
From Verif Require Import Base ShmOpenModel.

(** * Specification vocabulary *)

Inductive reach (ok : st -> label -> Prop) : st -> Prop :=
| reach_init : reach ok init
| reach_step s l s' : reach ok s -> ok s l -> apply s l = Some s' -> reach ok s'.

Definition any_schedule (s : st) (l : label) : Prop := True.

(** Process i has the object mapped on behalf of an Open or Create call that returned. *)
Definition has (s : st) (i g : nat) : Prop := pcs s i = Mapped g.

(** A process inside a Create, Open or RemoveStaleArtefacts call. *)
Definition in_call (p : pc) : bool :=
  match p with Idle | Mapped _ | Terminated => false | _ => true end.

(** Stale artefacts are removed only while no process is inside a Create or Open call, none starts
    one meanwhile, and the process removing them does not die halfway. Processes may die anywhere
    else. *)
Definition cleaning_apart (s : st) (l : label) : Prop :=
  match l with
  | RemoveStale _ => forall j, in_call (pcs s j) = false
  | Create _ | Open _ => forall j, pcs s j <> Removing
  | Crash i => pcs s i <> Removing
  | _ => True
  end.

(** No process dies inside a call. *)
Definition no_death_inside (s : st) (l : label) : Prop :=
  match l with Crash i => in_call (pcs s i) = false | _ => True end.

(** * C71 *)

Definition token (p : pc) : option nat :=
  match p with
  | CrLocked t | CrObject t _ | CrDone t _ | OpLocked t | OpMapped t _ => Some t
  | _ => None
  end.
Definition seen (p : pc) : option nat :=
  match p with CrDone _ g | OpMapped _ g | Mapped g => Some g | _ => None end.

Definition inv (s : st) : Prop :=
  (forall i t, token (pcs s i) = Some t -> lockf s = Some t)
  /\ (forall i j t, token (pcs s i) = Some t -> token (pcs s j) = Some t -> i = j)
  /\ (forall g, obj s = Some g -> initialised s g = false ->
        (exists t, lockf s = Some t /\ forall i, token (pcs s i) = Some t -> pcs s i = CrObject t g)
        \/ exists i, pcs s i = Removing)
  /\ (forall i g, seen (pcs s i) = Some g -> initialised s g = true)
  /\ (forall t, lockf s = Some t -> t < fresh s)
  /\ (forall i j, pcs s i = Removing -> in_call (pcs s j) = true -> j = i).

Ltac upd i j := destruct (Nat.eq_dec j i) as [->|?];
  [rewrite ?fupd_eq in *|rewrite ?(fupd_neq _ i j) in * by assumption].

Lemma token_in_call p t : token p = Some t -> in_call p = true /\ p <> Removing.
Proof. destruct p; cbn; intros H; split; congruence. Qed.

(** The holder of the lock file, unless still initialising, sees a complete object. *)
Lemma holder_sees s i t g :
  inv s -> token (pcs s i) = Some t -> (forall x, pcs s i <> CrObject t x) ->
  obj s = Some g -> initialised s g = true.
Proof.
  intros (A & B & C & D & L & R) T NC Ob. destruct (initialised s g) eqn:In; [reflexivity|exfalso].
  destruct (C g Ob In) as [(u & U1 & U2)|(k & K)].
  - rewrite (A i t T) in U1. injection U1 as <-. exact (NC g (U2 i T)).
  - destruct (token_in_call _ _ T) as [X Y]. assert (i = k) by exact (R k i K X). congruence.
Qed.

Lemma inv_release s i p t :
  inv s -> token (pcs s i) = Some t -> in_call p = false ->
  (forall g, seen p = Some g -> initialised s g = true) ->
  (forall g, pcs s i <> CrObject t g) ->
  inv (set_pc (unlock s) i p).
Proof.
  intros I T N S NC. assert (Ob := fun g => holder_sees s i t g I T NC).
  destruct I as (A & B & C & D & L & R).
  assert (Np : token p = None) by (destruct p; cbn in *; congruence).
  assert (Nj : forall j x, token (fupd (pcs s) i p j) = Some x -> False).
  { intros j x. upd i j; [congruence|]. intros H.
    assert (x = t) by (generalize (A j x H) (A i t T); congruence).
    subst x. assert (j = i) by (exact (B j i t H T)). congruence. }
  unfold inv; cbn [lockf obj initialised fresh pcs set_pc unlock].
  split; [intros j x H; destruct (Nj j x H)|].
  split; [intros j k x H; destruct (Nj j x H)|].
  split; [intros g H Q; rewrite (Ob g H) in Q; discriminate|].
  split; [intros j g; upd i j; [apply S|apply D]|].
  split; [discriminate|].
  intros j k. upd i j; [intros Z; rewrite Z in N; discriminate|]. upd i k; [congruence|]. apply R.
Qed.

Lemma inv_leave s i p :
  inv s -> pcs s i <> Removing -> in_call p = false ->
  (forall g, seen p = Some g -> initialised s g = true) ->
  inv (set_pc s i p).
Proof.
  intros (A & B & C & D & L & R) NR N S.
  assert (Np : token p = None) by (destruct p; cbn in *; congruence).
  unfold inv; cbn [lockf obj initialised fresh pcs set_pc].
  split; [intros j x; upd i j; [congruence|apply A]|].
  split; [intros j k x; upd i j; [congruence|]; upd i k; [congruence|apply B]|].
  split.
  { intros g H Q. destruct (C g H Q) as [(t & T1 & T2)|(k & K)].
    - left. exists t. split; [exact T1|]. intros j. upd i j; [congruence|apply T2].
    - right. exists k. upd i k; [congruence|exact K]. }
  split; [intros j g; upd i j; [apply S|apply D]|].
  split; [exact L|].
  intros j k. upd i j; [intros Z; rewrite Z in N; discriminate|]. upd i k; [congruence|]. apply R.
Qed.

Lemma inv_lock s i p :
  inv s -> (forall j, pcs s j <> Removing) -> lockf s = None ->
  p = CrLocked (fresh s) \/ p = OpLocked (fresh s) ->
  inv (set_pc (lock s) i p).
Proof.
  intros (A & B & C & D & L & R) NR N P.
  assert (T : token p = Some (fresh s)) by (destruct P; subst p; reflexivity).
  assert (Nj : forall j x, token (pcs s j) = Some x -> False).
  { intros j x H. generalize (A j x H). congruence. }
  unfold inv; cbn [lockf obj initialised fresh pcs set_pc lock].
  split; [intros j x; upd i j; [congruence|intros H; destruct (Nj j x H)]|].
  split; [intros j k x; upd i j; [|intros H; destruct (Nj j x H)]; upd i k; [reflexivity|intros _ H; destruct (Nj k x H)]|].
  split.
  { intros g H Q. exfalso. destruct (C g H Q) as [(t & X & _)|(k & K)]; [congruence|exact (NR k K)]. }
  split; [intros j g; upd i j; [destruct P; subst p; discriminate|apply D]|].
  split; [intros t H; injection H as <-; lia|].
  intros j k. upd i j; [destruct P; subst p; discriminate|]. intros H. destruct (NR j H).
Qed.

Lemma inv_step s l s' : inv s -> cleaning_apart s l -> apply s l = Some s' -> inv s'.
Proof.
  intros I OK S. assert (I' := I). destruct I' as (A & B & C & D & L & R).
  destruct l as [i|i|i|i|i|i|i]; cbn [apply cleaning_apart] in S, OK.
  - destruct (is_idle (pcs s i)); [|discriminate]. destruct (lockf s) eqn:Lk; injection S as <-; [exact I|].
    apply inv_lock; auto.
  - destruct (is_idle (pcs s i)); [|discriminate]. destruct (lockf s) eqn:Lk; [discriminate|]. injection S as <-.
    apply inv_lock; auto.
  - destruct (is_idle (pcs s i)) eqn:Id; [|discriminate]. destruct (lockf s) eqn:Lk; [|discriminate]. injection S as <-.
    apply inv_leave; [exact I|intros Z; rewrite Z in Id; discriminate|reflexivity|discriminate].
  - unfold go in S. destruct (pcs s i) as [|t|t g|t g|t|t g| |g|] eqn:P; try discriminate.
    + assert (T : token (pcs s i) = Some t) by (rewrite P; reflexivity).
      destruct (obj s) as [g|] eqn:Ob; injection S as <-.
      * apply (inv_release s i Idle t I T eq_refl); [discriminate|]. intros x. rewrite P. discriminate.
      * assert (Tj : forall j, token (fupd (pcs s) i (CrObject t (fresh s)) j) = token (pcs s j)).
        { intros j. upd i j; [rewrite P; reflexivity|reflexivity]. }
        unfold inv; cbn [lockf obj initialised fresh pcs].
        split; [intros j x; rewrite Tj; apply A|].
        split; [intros j k x; rewrite !Tj; apply B|].
        split.
        { intros g H _. injection H as <-. left. exists t. split; [exact (A i t T)|].
          intros j. upd i j; [reflexivity|].
          intros Z. assert (j = i) by exact (B j i t Z T). congruence. }
        split; [intros j g; upd i j; [discriminate|apply D]|].
        split; [intros x H; generalize (L x H); lia|].
        intros j k. upd i j; [discriminate|]. upd i k; [|apply R]. intros H _.
        apply (R j i H). rewrite P. reflexivity.
    + injection S as <-. assert (T : token (pcs s i) = Some t) by (rewrite P; reflexivity).
      assert (Tj : forall j, token (fupd (pcs s) i (CrDone t g) j) = token (pcs s j)).
      { intros j. upd i j; [rewrite P; reflexivity|reflexivity]. }
      unfold inv; cbn [lockf obj initialised fresh pcs].
      split; [intros j x; rewrite Tj; apply A|].
      split; [intros j k x; rewrite !Tj; apply B|].
      split.
      { intros x H. upd g x; [discriminate|]. intros Q.
        destruct (C x H Q) as [(u & U1 & U2)|(k & K)].
        - exfalso. rewrite (A i t T) in U1. injection U1 as <-. generalize (U2 i T). congruence.
        - right. exists k. upd i k; [congruence|exact K]. }
      split.
      { intros j x H. upd g x; [reflexivity|]. upd i j; [cbn in H; congruence|]. exact (D j x H). }
      split; [exact L|].
      intros j k. upd i j; [discriminate|]. upd i k; [|apply R]. intros H _.
      apply (R j i H). rewrite P. reflexivity.
    + injection S as <-. assert (T : token (pcs s i) = Some t) by (rewrite P; reflexivity).
      assert (G : initialised s g = true) by (apply (D i); rewrite P; reflexivity).
      apply (inv_release s i (Mapped g) t I T eq_refl); [intros x H; injection H as <-; exact G|].
      intros x. rewrite P. discriminate.
    + assert (T : token (pcs s i) = Some t) by (rewrite P; reflexivity).
      destruct (obj s) as [g|] eqn:Ob; injection S as <-.
      * assert (G : initialised s g = true).
        { apply (holder_sees s i t g I T); [intros x; rewrite P; discriminate|exact Ob]. }
        assert (Tj : forall j, token (fupd (pcs s) i (OpMapped t g) j) = token (pcs s j)).
        { intros j. upd i j; [rewrite P; reflexivity|reflexivity]. }
        unfold inv; cbn [lockf obj initialised fresh pcs set_pc].
        split; [intros j x; rewrite Tj; apply A|].
        split; [intros j k x; rewrite !Tj; apply B|].
        split; [intros x H Q; rewrite Ob in H; assert (x = g) by congruence; subst x; congruence|].
        split; [intros j x; upd i j; [intros H; injection H as <-; exact G|apply D]|].
        split; [exact L|].
        intros j k. upd i j; [discriminate|]. upd i k; [|apply R]. intros H _.
        apply (R j i H). rewrite P. reflexivity.
      * apply (inv_release s i Idle t I T eq_refl); [discriminate|]. intros x. rewrite P. discriminate.
    + injection S as <-. assert (T : token (pcs s i) = Some t) by (rewrite P; reflexivity).
      assert (G : initialised s g = true) by (apply (D i); rewrite P; reflexivity).
      apply (inv_release s i (Mapped g) t I T eq_refl); [intros x H; injection H as <-; exact G|].
      intros x. rewrite P. discriminate.
    + injection S as <-.
      unfold inv; cbn [lockf obj initialised fresh pcs].
      split; [intros j x; upd i j; [discriminate|apply A]|].
      split; [intros j k x; upd i j; [discriminate|]; upd i k; [discriminate|apply B]|].
      split; [discriminate|].
      split; [intros j g; upd i j; [discriminate|apply D]|].
      split; [exact L|].
      intros j k. upd i j; [discriminate|]. upd i k; [discriminate|apply R].
  - destruct (pcs s i) eqn:P; try discriminate. injection S as <-.
    apply inv_leave; [exact I|congruence|reflexivity|discriminate].
  - destruct (is_idle (pcs s i)) eqn:Id; [|discriminate]. injection S as <-.
    assert (Nt : forall j, token (fupd (pcs s) i Removing j) = None).
    { intros j. upd i j; [reflexivity|]. specialize (OK j). destruct (pcs s j); cbn in *; congruence. }
    unfold inv; cbn [lockf obj initialised fresh pcs set_pc unlock].
    split; [intros j x H; rewrite Nt in H; discriminate|].
    split; [intros j k x H; rewrite Nt in H; discriminate|].
    split; [intros g _ _; right; exists i; apply fupd_eq|].
    split; [intros j g; upd i j; [discriminate|apply D]|].
    split; [discriminate|].
    intros j k. upd i j; upd i k; intros X Y; try reflexivity.
    + rewrite OK in Y. discriminate.
    + specialize (OK j). rewrite X in OK. discriminate.
    + rewrite OK in Y. discriminate.
  - injection S as <-. apply inv_leave; [exact I|exact OK|reflexivity|discriminate].
Qed.

Lemma inv_reach s : reach cleaning_apart s -> inv s.
Proof.
  induction 1 as [|s l s' _ I OK S]; [|exact (inv_step s l s' I OK S)].
  unfold inv; cbn. repeat split; try discriminate.
Qed.

(** Whatever the schedule and wherever processes die, the object an Open or Create call returned is
    completely initialised, if stale artefacts are removed apart from other calls. *)
Theorem C71_mapped_is_initialised_partial s i g :
  reach cleaning_apart s -> has s i g -> initialised s g = true.
Proof. intros R H. destruct (inv_reach s R) as (_ & _ & _ & D & _). apply (D i). rewrite H. reflexivity. Qed.

(** At most one process at a time is between acquiring and releasing the lock file. *)
Theorem C71_one_at_a_time_partial s i j t u :
  reach cleaning_apart s -> token (pcs s i) = Some t -> token (pcs s j) = Some u -> i = j.
Proof.
  intros R H K. destruct (inv_reach s R) as (A & B & _).
  assert (t = u) by (generalize (A i t H) (A j u K); congruence). subst u. exact (B i j t H K).
Qed.

(** Running a list of labels. *)
Fixpoint run (s : st) (ls : list label) : option st :=
  match ls with
  | [] => Some s
  | l :: r => match apply s l with Some s' => run s' r | None => None end
  end.

Lemma run_reach (ok : st -> label -> Prop) : (forall s l, ok s l) -> forall ls s s', reach ok s -> run s ls = Some s' -> reach ok s'.
Proof.
  intros OK. induction ls as [|l r IH]; intros s s' R H; cbn in H; [injection H as <-; exact R|].
  destruct (apply s l) as [s1|] eqn:A; [|discriminate]. exact (IH s1 s' (reach_step ok s l s1 R (OK s l) A) H).
Qed.

(** Two processes clean up and create at once: the second one's object is opened half-made. *)
Definition overlap_run : list label :=
  [Create 0; Go 0;                     (* 0: lock file, object *)
   RemoveStale 1; Go 1;                (* 1 takes both for stale *)
   Create 1; Go 1;                     (* 1: lock file, object *)
   Go 0; Go 0;                         (* 0 finishes and unlinks the lock file of 1 *)
   Open 2; Go 2; Go 2].

Theorem C71_overlapping_cleanup_refuted :
  exists s, reach any_schedule s /\ exists i g, has s i g /\ initialised s g = false.
Proof.
  destruct (run init overlap_run) as [s|] eqn:E; [|discriminate].
  exists s. split; [apply (run_reach any_schedule (fun _ _ => I) overlap_run init s (reach_init _) E)|].
  exists 2, 3. injection E as <-. split; reflexivity.
Qed.

(** No two calls ever overlap, yet a provider dying while creating and the next one dying while
    cleaning up leave an incomplete object without lock file. *)
Definition calls_one_by_one (s : st) (l : label) : Prop :=
  match l with
  | Create i | Open i | RemoveStale i | Go i => forall j, j <> i -> in_call (pcs s j) = false
  | _ => True
  end.

Ltac alone :=
  solve [exact Logic.I
        |let j := fresh "j" in let N := fresh "N" in
         intros j N; cbn; unfold fupd; apply Nat.eqb_neq in N; rewrite ?N;
         destruct (Nat.eqb j 0), (Nat.eqb j 1), (Nat.eqb j 2); first [reflexivity|discriminate]].

Theorem C71_death_while_cleaning_refuted :
  exists s, reach calls_one_by_one s /\ exists i g, has s i g /\ initialised s g = false.
Proof.
  assert (S : forall s l s', reach calls_one_by_one s -> calls_one_by_one s l -> apply s l = Some s' ->
              reach calls_one_by_one s') by (intros; eapply reach_step; eassumption).
  assert (R0 := reach_init calls_one_by_one).
  eassert (R1 : reach calls_one_by_one _) by (eapply (S _ (Create 0) _ R0); [alone|reflexivity]).
  eassert (R2 : reach calls_one_by_one _) by (eapply (S _ (Go 0) _ R1); [alone|reflexivity]).
  eassert (R3 : reach calls_one_by_one _) by (eapply (S _ (Crash 0) _ R2); [alone|reflexivity]).
  eassert (R4 : reach calls_one_by_one _) by (eapply (S _ (RemoveStale 1) _ R3); [alone|reflexivity]).
  eassert (R5 : reach calls_one_by_one _) by (eapply (S _ (Crash 1) _ R4); [alone|reflexivity]).
  eassert (R6 : reach calls_one_by_one _) by (eapply (S _ (Open 2) _ R5); [alone|reflexivity]).
  eassert (R7 : reach calls_one_by_one _) by (eapply (S _ (Go 2) _ R6); [alone|reflexivity]).
  eassert (R8 : reach calls_one_by_one _) by (eapply (S _ (Go 2) _ R7); [alone|reflexivity]).
  eexists. split; [exact R8|]. exists 2, 1. split; reflexivity.
Qed.

(** * C72 *)

(** As long as no process dies inside a call, a lock file belongs to a live process, which releases
    it within three steps of its own. *)
Lemma owned_reach s : reach no_death_inside s -> forall t, lockf s = Some t -> exists i, token (pcs s i) = Some t.
Proof.
  induction 1 as [|s l s' _ IH OK S]; [discriminate|]. intros t Lk.
  assert (K : forall i p, token (pcs s i) = None \/ token p = token (pcs s i) ->
              (exists k, token (pcs s k) = Some t) -> exists k, token (fupd (pcs s) i p k) = Some t).
  { intros i p H (k & T). exists k. upd i k; [destruct H; congruence|exact T]. }
  destruct l as [i|i|i|i|i|i|i]; cbn [apply no_death_inside] in S, OK.
  - destruct (is_idle (pcs s i)); [|discriminate]. destruct (lockf s) eqn:L0; injection S as <-; [rewrite L0 in Lk; exact (IH t Lk)|].
    cbn in Lk |- *. exists i. rewrite fupd_eq. exact Lk.
  - destruct (is_idle (pcs s i)); [|discriminate]. destruct (lockf s) eqn:L0; [discriminate|]. injection S as <-.
    cbn in Lk |- *. exists i. rewrite fupd_eq. exact Lk.
  - destruct (is_idle (pcs s i)) eqn:Id; [|discriminate]. destruct (lockf s) eqn:L0; [|discriminate]. injection S as <-.
    cbn in Lk |- *. apply K; [left; destruct (pcs s i); try discriminate Id; reflexivity|]. apply IH. congruence.
  - unfold go in S. destruct (pcs s i) eqn:P; try discriminate;
      try (destruct (obj s) eqn:Ob); injection S as <-; cbn in Lk |- *; try discriminate;
      apply K; try (exact (IH t Lk)); rewrite P; cbn; tauto.
  - destruct (pcs s i) eqn:P; try discriminate. injection S as <-. cbn in Lk |- *.
    apply K; [left; rewrite P; reflexivity|exact (IH t Lk)].
  - destruct (is_idle (pcs s i)) eqn:Id; [|discriminate]. injection S as <-. discriminate Lk.
  - injection S as <-. cbn in Lk |- *. apply K; [|exact (IH t Lk)].
    left. destruct (pcs s i); try discriminate OK; reflexivity.
Qed.

Lemma go_release s i t : token (pcs s i) = Some t ->
  exists n s', n <= 3 /\ run s (repeat (Go i) n) = Some s' /\ lockf s' = None.
Proof.
  intros T. destruct (pcs s i) as [|x|x g|x g|x|x g| |g|] eqn:P; try discriminate T.
  - destruct (obj s) eqn:Ob.
    + exists 1. cbn. unfold go. rewrite P, Ob. eexists. split; [lia|]. split; reflexivity.
    + exists 3. cbn. unfold go. rewrite P, Ob. cbn. rewrite fupd_eq. cbn. rewrite fupd_eq.
      eexists. split; [lia|]. split; reflexivity.
  - exists 2. cbn. unfold go. rewrite P. cbn. rewrite fupd_eq. eexists. split; [lia|]. split; reflexivity.
  - exists 1. cbn. unfold go. rewrite P. eexists. split; [lia|]. split; reflexivity.
  - destruct (obj s) eqn:Ob.
    + exists 2. cbn. unfold go. rewrite P, Ob. cbn. rewrite fupd_eq. eexists. split; [lia|]. split; reflexivity.
    + exists 1. cbn. unfold go. rewrite P, Ob. eexists. split; [lia|]. split; reflexivity.
  - exists 1. cbn. unfold go. rewrite P. eexists. split; [lia|]. split; reflexivity.
Qed.

Theorem C72_lock_is_released_partial s t :
  reach no_death_inside s -> lockf s = Some t ->
  exists i n s', n <= 3 /\ token (pcs s i) = Some t /\ run s (repeat (Go i) n) = Some s' /\ lockf s' = None.
Proof.
  intros R Lk. destruct (owned_reach s R t Lk) as (i & T).
  destruct (go_release s i t T) as (n & s' & N & E & F). exists i, n, s'. auto.
Qed.

(** After a process died inside a call, until stale artefacts are removed: no Open or Create
    succeeds any more and Open has no outcome but termination. *)
Definition no_cleaning (l : label) : Prop := match l with RemoveStale _ => False | _ => True end.

Definition orphan (s : st) : Prop :=
  lockf s <> None /\ forall i, token (pcs s i) = None.

Theorem C72_orphan_blocks s ls s' :
  orphan s -> Forall no_cleaning ls -> run s ls = Some s' ->
  orphan s' /\ (forall i, apply s' (Open i) = None)
  /\ (forall i g, has s' i g -> has s i g).
Proof.
  intros O F. revert s O. induction F as [|l r N F IH]; intros s O E; cbn in E.
  - injection E as <-. split; [exact O|]. split; [|auto]. intros i. cbn.
    destruct O as [O _]. destruct (is_idle (pcs s i)); [|reflexivity].
    destruct (lockf s); [reflexivity|congruence].
  - destruct (apply s l) as [s1|] eqn:A; [|discriminate].
    assert (X : orphan s1 /\ forall i g, has s1 i g -> has s i g).
    { destruct O as [O1 O2]. assert (Up : forall i p, token p = None -> (forall g, p <> Mapped g) ->
        orphan (set_pc s i p) /\ forall j g, has (set_pc s i p) j g -> has s j g).
      { intros i p T M. split; [split; [exact O1|]; intros j; cbn; upd i j; [exact T|apply O2]|].
        intros j g. unfold has. cbn. upd i j; [intros Z; destruct (M g Z)|auto]. }
      destruct l as [i|i|i|i|i|i|i]; cbn [apply] in A.
      - destruct (is_idle (pcs s i)); [|discriminate]. destruct (lockf s) eqn:L0; [|congruence].
        injection A as <-. split; [split; [congruence|exact O2]|auto].
      - destruct (is_idle (pcs s i)); [|discriminate]. destruct (lockf s) eqn:L0; [discriminate|congruence].
      - destruct (is_idle (pcs s i)); [|discriminate]. destruct (lockf s) eqn:L0; [|discriminate].
        injection A as <-. apply Up; [reflexivity|discriminate].
      - unfold go in A. specialize (O2 i) as Ti. destruct (pcs s i) eqn:P; try discriminate.
        injection A as <-. split; [split; [exact O1|]; intros j; cbn; upd i j; [reflexivity|apply O2]|].
        intros j g. unfold has. cbn. upd i j; [discriminate|auto].
      - destruct (pcs s i); try discriminate. injection A as <-. apply Up; [reflexivity|discriminate].
      - destruct N.
      - injection A as <-. apply Up; [reflexivity|discriminate]. }
    destruct X as [O' H']. destruct (IH s1 O' E) as (Y1 & Y2 & Y3). split; [exact Y1|]. split; [exact Y2|].
    intros i g Z. apply H', Y3, Z.
Qed.

(** One consumer dies while opening shared memory a provider serves; another consumer's Open then
    terminates that consumer, whatever it waits for. *)
Theorem C72_death_spreads_refuted :
  exists s, reach any_schedule s
    /\ (exists g, has s 0 g /\ obj s = Some g /\ initialised s g = true)
    /\ orphan s
    /\ forall i, pcs s i = Idle -> apply s (GiveUp i) = Some (set_pc s i Terminated).
Proof.
  destruct (run init [Create 0; Go 0; Go 0; Go 0; Open 1; Crash 1]) as [s|] eqn:E; [|discriminate].
  exists s. split; [apply (run_reach any_schedule (fun _ _ => I) _ init s (reach_init _) E)|].
  injection E as <-. split; [exists 1; repeat split; reflexivity|]. split.
  - split; [discriminate|]. intros i. cbn. unfold fupd. destruct (Nat.eqb i 1), (Nat.eqb i 0); reflexivity.
  - intros i H. unfold apply. rewrite H. reflexivity.
Qed.

(** * Concrete cases *)

(** Creation by 0, a failing second creation, two consumers opening, one of them after the creator
    died, under the conditions of C71. *)
Example C71_example :
  exists s, reach cleaning_apart s /\ has s 1 1 /\ has s 2 1 /\ initialised s 1 = true.
Proof.
  assert (G : forall ls s s', reach cleaning_apart s -> (forall j, pcs s j <> Removing) -> Forall no_cleaning ls ->
              run s ls = Some s' -> reach cleaning_apart s').
  { induction ls as [|l r IH]; intros s s' R NR F E; cbn in E; [injection E as <-; exact R|].
    destruct (apply s l) as [s1|] eqn:A; [|discriminate]. inversion F; subst.
    assert (NR1 : forall j, pcs s1 j <> Removing).
    { intros j. destruct l as [i|i|i|i|i|i|i]; cbn [apply] in A.
      - destruct (is_idle (pcs s i)); [|discriminate]. destruct (lockf s); injection A as <-; [apply NR|].
        cbn. upd i j; [discriminate|apply NR].
      - destruct (is_idle (pcs s i)); [|discriminate]. destruct (lockf s); [discriminate|]. injection A as <-.
        cbn. upd i j; [discriminate|apply NR].
      - destruct (is_idle (pcs s i)); [|discriminate]. destruct (lockf s); [|discriminate]. injection A as <-.
        cbn. upd i j; [discriminate|apply NR].
      - unfold go in A. destruct (pcs s i); try discriminate; try destruct (obj s); injection A as <-;
          cbn; upd i j; try discriminate; apply NR.
      - destruct (pcs s i); try discriminate. injection A as <-. cbn. upd i j; [discriminate|apply NR].
      - contradiction.
      - injection A as <-. cbn. upd i j; [discriminate|apply NR]. }
    refine (IH s1 s' (reach_step _ s l s1 R _ A) NR1 _ E); [|assumption].
    destruct l; cbn; auto. contradiction. }
  destruct (run init [Create 0; Go 0; Go 0; Create 1; Go 0; Create 1; Go 1; Open 1; Go 1; Go 1; Crash 0; Open 2; Go 2; Go 2])
    as [s|] eqn:E; [|discriminate].
  exists s. split.
  - refine (G _ init s (reach_init _) _ _ E); [discriminate|repeat constructor].
  - injection E as <-. repeat split; reflexivity.
Qed.

Example C72_example :
  exists s t, reach no_death_inside s /\ lockf s = Some t.
Proof.
  exists (set_pc (lock init) 0 (CrLocked 0)), 0. split; [|reflexivity].
  exact (reach_step _ init (Create 0) _ (reach_init _) Logic.I eq_refl).
Qed.

Print Assumptions C71_mapped_is_initialised_partial.
Print Assumptions C71_death_while_cleaning_refuted.
Print Assumptions C72_lock_is_released_partial.
Print Assumptions C72_orphan_blocks.
Print Assumptions C72_death_spreads_refuted.
