(** C111: the shared-memory factory and the registry of one process. *)
From Coq Require Import List Arith Bool Lia.
From Verif Require Import FactModel FactSpec FactProof FactInv FactOrd FactLink.
Import ListNotations.

(** The registry never names memory that is not mapped (any more): whatever threads open, remove and
    drop, a container that finds its resource finds a living one. *)
Theorem C111_no_dangling : forall c ls s k r,
  run c init ls = Some s -> reg s k = Some r -> mapd s r = true /\ key c (rpath (info s r)) = k.
Proof. intros c ls s k r R E. apply reach_inv in R. destruct (i_reg _ _ R _ _ E) as (_ & A & B). auto. Qed.

(** When nothing is held and no call is running, nothing stays mapped or registered. *)
Theorem C111_no_leak : forall c ls s,
  run c init ls = Some s -> (forall t, th s t = Idle) -> (forall r, ~ live s r) ->
  (forall r, mapd s r = false) /\ (forall k, reg s k = None).
Proof.
  intros c ls s R ID NL. apply reach_inv in R.
  assert (M : forall r, mapd s r = false).
  { intros r. destruct (mapd s r) eqn:E; auto. destruct (i_map _ _ R r E) as [_ [H|(t & H)]].
    - destruct (NL r H). - rewrite ID in H. discriminate. }
  split; auto. intros k. destruct (reg s k) as [r|] eqn:E; auto.
  destruct (i_reg _ _ R _ _ E) as (_ & _ & X). rewrite M in X. discriminate.
Qed.

(** An answer is memory of the path asked for, and its owner is the process's own user or one of the
    allowed providers, if these are given. *)
Theorem C111_open_answer : forall c ls s t o r,
  run c init ls = Some s -> th s t = TDone o (Some r) ->
  rpath (info s r) = opath o /\
  (forall l, allowed o = Some l -> ruid (info s r) = me c \/ In (ruid (info s r)) l).
Proof.
  intros c ls s t o r R E. apply reach_inv in R. assert (T := i_tok _ _ R t). rewrite E in T. cbn in T.
  destruct T as (_ & _ & RP & AD). split; auto. intros l AL. rewrite AL in AD. cbn in AD.
  apply orb_true_iff in AD as [AD|AD]; [left; now apply Nat.eqb_eq in AD|right].
  apply existsb_exists in AD as (u & I & U). apply Nat.eqb_eq in U. now subst u.
Qed.

Lemma ret_step c s l s' t o r : inv c s -> returns c s l s' t o (Some r) ->
  ((exists p, o = Create p /\ th s t = TIns o r) \/ th s t = TCheck o r) /\ held s' r = S (held s r) /\
  mapd s' = mapd s /\ info s' = info s /\ nxt s' = nxt s /\ files s' = files s.
Proof.
  intros V (A & E & N). revert A. unfold apply. destruct (dead s); [discriminate|].
  destruct l as [t1 o1|t1 ok|r1|t1 r1|q [u|]].
  - destruct (th s t1); try discriminate. intros [= <-]. cbn in E.
    destruct (Nat.eq_dec t t1) as [->|X]; [rewrite upd_eq in E; discriminate|rewrite upd_neq in E by exact X; contradiction].
  - unfold thread_step. intros A. destruct (Nat.eq_dec t t1) as [->|X].
    + destruct (th s t1) eqn:ET; try discriminate; try (injection A as <-; cbn in E; rewrite upd_eq in E; discriminate).
      * destruct (lockh s); try discriminate. injection A as <-. cbn in E. rewrite upd_eq in E. discriminate.
      * injection A as <-. exfalso. revert E. unfold looked, lookup.
        destruct (fmap s (opath o0)) as [r2|]; [destruct (Nat.ltb 0 (held s r2))|]; destruct o0; cbn; rewrite ?upd_eq, ?ET; discriminate.
      * injection A as <-. exfalso. revert E. unfold fs_step. destruct o0; cbn; rewrite ?ET; try discriminate; destruct (files s p); destruct ok; cbn; rewrite ?upd_eq, ?ET; discriminate.
      * injection A as <-. exfalso. revert E. unfold map_step. destruct (reg s (key c (rpath (info s r0)))); cbn; rewrite ?upd_eq, ?ET; discriminate.
      * injection A as <-. revert E. unfold ins_step. destruct (fmap s (opath o0)); [cbn; rewrite ET; discriminate|].
        destruct o0; cbn; rewrite ?upd_eq; try discriminate. intros [= <- <-]. rewrite upd_eq. split; [left; eauto|auto].
      * injection A as <-. revert E. unfold check_step. destruct (admitted c (ruid (info s r0)) (allowed o0)); cbn; rewrite ?upd_eq; try discriminate.
        intros [= <- <-]. rewrite upd_eq. auto 10.
      * injection A as <-. exfalso. revert E. destruct (Nat.ltb 0 (held s r0)); cbn; rewrite upd_eq; discriminate.
    + exfalso. apply N. rewrite <- E. symmetry.
      destruct (th s t1) eqn:ET; try discriminate; try (injection A as <-; cbn; now rewrite ?upd_neq by exact X).
      * destruct (lockh s); try discriminate. injection A as <-. cbn. now rewrite ?upd_neq by exact X.
      * injection A as <-. now apply (looked_facts c).
      * injection A as <-. unfold fs_step. destruct o0; cbn; auto; destruct (files s p); destruct ok; cbn; now rewrite ?upd_neq by exact X.
      * injection A as <-. unfold map_step. destruct (reg s (key c (rpath (info s r0)))); cbn; now rewrite ?upd_neq by exact X.
      * injection A as <-. unfold ins_step. destruct (fmap s (opath o0)); [auto|destruct o0; cbn; now rewrite ?upd_neq by exact X].
      * injection A as <-. unfold check_step. destruct (admitted c (ruid (info s r0)) (allowed o0)); cbn; now rewrite ?upd_neq by exact X.
      * injection A as <-. destruct (Nat.ltb 0 (held s r0)); cbn; now rewrite ?upd_neq by exact X.
  - destruct (Nat.ltb 0 (held s r1)); [|discriminate]. intros [= <-]. cbn in E. contradiction.
  - destruct (th s t1) eqn:ET; try discriminate. destruct (Nat.ltb 0 (held s r1)); [|discriminate]. intros [= <-].
    revert E. unfold release. destruct (Nat.eqb (held s r1) 1 && negb (is_some r1 (lock_temp s))); cbn; [|contradiction].
    destruct (Nat.eq_dec t t1) as [->|X]; [rewrite upd_eq; discriminate|rewrite upd_neq by exact X; contradiction].
  - destruct (files s q); [discriminate|]. intros [= <-]. cbn in E. contradiction.
  - intros [= <-]. cbn in E. contradiction.
Qed.

(** When a call returns memory, the caller holds it and it is mapped. *)
Theorem C111_answer_usable : forall c ls s l s' t o r,
  run c init ls = Some s -> returns c s l s' t o (Some r) -> live s' r /\ mapd s' r = true.
Proof.
  intros c ls s l s' t o r R RT. apply reach_inv in R. destruct (ret_step _ _ _ _ _ _ _ R RT) as (ST & H & M & _).
  unfold live. rewrite H, M. split; [lia|]. assert (T := i_tok _ _ R t).
  destruct ST as [(p & -> & E)|E]; rewrite E in T; cbn in T; tauto.
Qed.

(** Create returns only memory that is new: mapped for writing, owned by the process's user, and
    mapped by no other handle of the process. *)
Theorem C111_create_new : forall c ls s l s' t p r,
  run c init ls = Some s -> returns c s l s' t (Create p) (Some r) ->
  rwr (info s' r) = true /\ ruid (info s' r) = me c /\
  forall r', r' < nxt s' -> rino (info s' r') = rino (info s' r) -> r' = r.
Proof.
  intros c ls s l s' t p r R RT. assert (V := reach_inv _ _ _ R).
  assert (W := ninv_run _ _ _ _ (inv_init c) (ninv_init c) R).
  destruct (ret_step _ _ _ _ _ _ _ V RT) as (ST & H & M & I & X & _). rewrite I, X.
  destruct ST as [(q & Q & E)|E]; [apply (n_new _ _ W t p r); auto|].
  exfalso. assert (K : forall s1 ls1, run c init ls1 = Some s1 -> forall t1 p1 r1, th s1 t1 <> TCheck (Create p1) r1).
  { clear. intros s1 ls1. revert s1. induction ls1 as [|l1 ls1 IH] using rev_ind; intros s1 R1 t1 p1 r1.
    - injection R1 as <-. discriminate.
    - assert (SP : exists s0, run c init ls1 = Some s0 /\ apply c s0 l1 = Some s1).
      { revert R1. generalize init. clear. induction ls1 as [|x xs IH]; cbn; intros s0 R1.
        - destruct (apply c s0 l1) eqn:A; [|discriminate]. injection R1 as <-. eauto.
        - destruct (apply c s0 x) as [s2|]; [|discriminate]. auto. }
      destruct SP as (s0 & R0 & A). specialize (IH s0 R0). assert (V := reach_inv _ _ _ R0). clear R1 R0.
      revert A. unfold apply. destruct (dead s0); [discriminate|].
      assert (G : forall s2 t2 x, (forall t, th s2 t = upd (th s0) t2 x t) -> (forall p r, x <> TCheck (Create p) r) -> th s2 t1 <> TCheck (Create p1) r1).
      { intros s2 t2 x TH A. rewrite TH. destruct (Nat.eq_dec t1 t2) as [->|N]; [rewrite upd_eq; apply A|rewrite upd_neq by exact N; apply IH]. }
      destruct l1 as [t2 o2|t2 ok|r2|t2 r2|q [u|]].
      + destruct (th s0 t2); try discriminate. intros [= <-]. eapply G; [reflexivity|discriminate].
      + unfold thread_step. destruct (th s0 t2) eqn:ET; try discriminate; try (intros [= <-]; eapply G; [reflexivity|discriminate]).
        * destruct (lockh s0); try discriminate. intros [= <-]. eapply G; [reflexivity|discriminate].
        * intros [= <-]. destruct (looked_facts c s0 t2 o V) as (_ & _ & _ & _ & TH).
          destruct (Nat.eq_dec t1 t2) as [->|N]; [|rewrite TH by exact N; apply IH].
          unfold looked, lookup. destruct (fmap s0 (opath o)) as [r3|]; [destruct (Nat.ltb 0 (held s0 r3))|];
            destruct o; cbn; rewrite ?upd_eq, ?ET; discriminate.
        * intros [= <-]. unfold fs_step. destruct o; cbn [opath]; try (apply IH); destruct (files s0 p); destruct ok; try (apply IH);
            (eapply G; [reflexivity|discriminate]).
        * intros [= <-]. unfold map_step. destruct (reg s0 (key c (rpath (info s0 r)))); [apply IH|eapply G; [reflexivity|discriminate]].
        * intros [= <-]. unfold ins_step. destruct (fmap s0 (opath o)); [apply IH|destruct o; (eapply G; [reflexivity|discriminate])].
        * intros [= <-]. unfold check_step. destruct (admitted c (ruid (info s0 r)) (allowed o)); (eapply G; [reflexivity|discriminate]).
        * intros [= <-]. destruct (Nat.ltb 0 (held s0 r)); (eapply G; [reflexivity|discriminate]).
      + destruct (Nat.ltb 0 (held s0 r2)); [|discriminate]. intros [= <-]. apply IH.
      + destruct (th s0 t2) eqn:ET; try discriminate. destruct (Nat.ltb 0 (held s0 r2)); [|discriminate]. intros [= <-].
        unfold release. destruct (Nat.eqb (held s0 r2) 1 && negb (is_some r2 (lock_temp s0))); [eapply G; [reflexivity|discriminate]|apply IH].
      + destruct (files s0 q); [discriminate|]. intros [= <-]. apply IH.
      + intros [= <-]. apply IH. }
  exact (K s ls R t p r E).
Qed.

(** No deadlock: while a call or a drop is unfinished, some thread can go on. *)
Theorem C111_progress : forall c ls s t,
  run c init ls = Some s -> dead s = false -> th s t <> Idle ->
  exists t' s', apply c s (LGo t' true) = Some s'.
Proof.
  intros c ls s t R DE N. apply reach_inv in R. unfold apply. rewrite DE.
  assert (G : forall t', (forall o, th s t' <> TLock o) -> th s t' <> Idle -> exists s', thread_step c s t' true = Some s').
  { intros t' A B. unfold thread_step. destruct (th s t') eqn:E; eauto; [contradiction|destruct (A o eq_refl)]. }
  destruct (th s t) eqn:E; try contradiction;
    try (exists t; apply G; rewrite E; congruence).
  destruct (lockh s) as [t'|] eqn:LK.
  - exists t'. apply (i_lock _ _ R) in LK. apply G; destruct (th s t'); cbn in LK; congruence.
  - exists t. unfold thread_step. rewrite E, LK. eauto.
Qed.

(** In orderly use every handle's memory stays registered, so its containers and pointers work.
    Missing: use after Remove, dropping while opening, and colliding identifiers (see the refuted
    statements). *)
Theorem C111_live_registered_partial : forall c ls s r,
  no_collision c -> run c init ls = Some s -> along orderly c init ls -> live s r -> registered c s r.
Proof.
  intros c ls s r INJ R O L. assert (D := dinv_run _ _ INJ _ _ (inv_init c) (dinv_init c) O R).
  apply (d_reg _ _ D). now left.
Qed.

(** In orderly use all handles of a path share one mapping. *)
Theorem C111_one_mapping_partial : forall c ls s r1 r2,
  no_collision c -> run c init ls = Some s -> along orderly c init ls ->
  live s r1 -> live s r2 -> rpath (info s r1) = rpath (info s r2) -> r1 = r2.
Proof.
  intros c ls s r1 r2 INJ R O L1 L2 E. assert (D := dinv_run _ _ INJ _ _ (inv_init c) (dinv_init c) O R).
  assert (A := d_reg _ _ D r1 (or_introl L1)). assert (B := d_reg _ _ D r2 (or_introl L2)).
  unfold registered in *. rewrite E in A. congruence.
Qed.

(** In orderly use the factory never terminates the process. *)
Theorem C111_no_termination_partial : forall c ls s,
  no_collision c -> run c init ls = Some s -> along orderly c init ls -> along permitted c init ls ->
  dead s = false.
Proof.
  intros c ls s INJ R O P. exact (alive_run _ _ INJ _ _ (inv_init c) (dinv_init c) eq_refl O P R).
Qed.

(** A call that wants to write gets writable memory, if nobody asked for read-only memory there. *)
Theorem C111_writable_partial : forall c ls s l s' t o r,
  run c init ls = Some s -> never_read_only (opath o) ls ->
  returns c s l s' t o (Some r) -> rwr (info s' r) = true.
Proof.
  intros c ls s l s' t o r R NR RT. assert (V := reach_inv _ _ _ R).
  assert (W : winv (opath o) s).
  { apply (winv_run c (opath o) ls init s); auto; [apply inv_init|]. split; cbn; [discriminate|lia]. }
  destruct (ret_step _ _ _ _ _ _ _ V RT) as (ST & H & M & I & X & _). rewrite I.
  assert (T := i_tok _ _ V t). apply (w_all _ _ W); destruct ST as [(p & -> & E)|E]; rewrite E in T; cbn in T; tauto.
Qed.

(** The memory returned is the object now linked at the path, if nobody unlinks that path. *)
Theorem C111_current_partial : forall c ls s l s' t o r,
  run c init ls = Some s -> never_unlinked (opath o) ls -> returns c s l s' t o (Some r) ->
  exists f, files s' (opath o) = Some f /\ ino f = rino (info s' r) /\ fuid f = ruid (info s' r).
Proof.
  intros c ls s l s' t o r R NU RT. assert (V := reach_inv _ _ _ R).
  assert (Q := qinv_run _ _ _ _ _ (inv_init c) kinds_init (qinv_init _) NU R).
  destruct (ret_step _ _ _ _ _ _ _ V RT) as (ST & H & M & I & X & F). rewrite I, F.
  assert (T := i_tok _ _ V t). apply (q_one _ _ Q); destruct ST as [(p & -> & E)|E]; rewrite E in T; cbn in T; tauto.
Qed.

(** An object stays where it is until somebody removes it: if no thread is inside Remove or
    RemoveStaleArtefacts for the path, none is called and no other process unlinks it. *)
Theorem C111_stays_linked_partial : forall c ls0 s ls s' p f,
  run c init ls0 = Some s ->
  (forall t, call_of (th s t) <> Some (Remove p) /\ call_of (th s t) <> Some (RemoveStale p)) ->
  never_unlinked p ls -> run c s ls = Some s' -> files s p = Some f -> files s' p = Some f.
Proof.
  intros c ls0 s ls s' p f R0 Q U R F.
  exact (link_run c p f ls s s' (reach_inv _ _ _ R0) (kinds_run _ _ _ _ (inv_init c) kinds_init R0) Q U R F).
Qed.

(** ** Concrete runs *)
Definition c0 : cfg := mkCfg (fun p => p) 7.
Definition go (t n : nat) : list label := repeat (LGo t true) n.

Lemma c0_inj : no_collision c0.
Proof. intros p q E. exact E. Qed.

(** Thread 0 creates, thread 1 opens, both drop: every hypothesis above is met. *)
Definition orderly_demo : list label :=
  LCall 0 (Create 1) :: go 0 6 ++ LCall 1 (Open 1 true (Some [7])) :: go 1 4.
Example C111_demo : exists s, run c0 init orderly_demo = Some s /\ live s 0 /\ held s 0 = 2 /\ registered c0 s 0 /\ dead s = false.
Proof. eexists. split; [vm_compute; reflexivity|]. unfold live, registered. cbn. repeat split; lia. Qed.

(** After both drop their handles all threads are idle and nothing is held: [C111_no_leak] applies. *)
Definition drop_demo : list label := orderly_demo ++ LRelease 0 0 :: LRelease 1 0 :: go 1 2.
Example C111_demo_drop : exists s, run c0 init drop_demo = Some s /\ nxt s = 1 /\
  (forall t, th s t = Idle) /\ (forall r, ~ live s r) /\ files s 1 = Some (mkFile 0 7).
Proof.
  eexists. split; [vm_compute; reflexivity|]. split; [reflexivity|]. split; [|split; [|reflexivity]].
  - intros [|[|t]]; reflexivity.
  - intros [|r]; unfold live; cbn; lia.
Qed.

Example C111_demo_orderly : along orderly c0 init orderly_demo /\ along permitted c0 init orderly_demo.
Proof.
  assert (OK : forall s l, (forall t ok o, l = LGo t ok -> th s t <> TLook o) ->
             (forall t, l <> LGo t false) -> orderly s l /\ permitted s l).
  { intros s l A B. split; [intros o (t & ok & E & H); destruct (A _ _ _ E H)|].
    split; [intros p r (t & ok & E & H); destruct (A _ _ _ E H)|]. intros t p al E. destruct (B _ E). }
  assert (G : forall s l s1 rest, apply c0 s l = Some s1 -> orderly s l /\ permitted s l ->
      along orderly c0 s1 rest /\ along permitted c0 s1 rest ->
      along orderly c0 s (l :: rest) /\ along permitted c0 s (l :: rest)).
  { intros s l s1 rest A [B C] [D E]. cbn [along]. rewrite A. auto. }
  unfold orderly_demo, go. cbn [repeat app].
  Ltac plain OK := apply OK; [first [intros ? ? ? ?; discriminate | intros ? ? ? E; injection E; intros; subst; cbn; discriminate]|intros ? E; try discriminate E].
  eapply G; [vm_compute; reflexivity|plain OK|].
  eapply G; [vm_compute; reflexivity|plain OK|].
  eapply G; [vm_compute; reflexivity| |].
  { split; [|split].
    - intros o (t & ok & E & H) _. injection E as <- <-. cbn in H. injection H as <-. split.
      + intros r H. cbn in H. lia.
      + intros t r H. cbn in H. destruct t; discriminate.
    - intros p r (t & ok & E & H). injection E as <- <-. cbn in H. discriminate.
    - intros t p al E. discriminate. }
  do 4 (eapply G; [vm_compute; reflexivity|plain OK|]).
  eapply G; [vm_compute; reflexivity|plain OK|].
  eapply G; [vm_compute; reflexivity|plain OK|].
  eapply G; [vm_compute; reflexivity| |].
  { split; [|split].
    - intros o (t & ok & E & H) _. injection E as <- <-. cbn in H. injection H as <-. split.
      + intros r H R. destruct r as [|r]; [reflexivity|]. cbn in H. lia.
      + intros t r H. destruct t as [|[|t]]; cbn in H; discriminate.
    - intros p r (t & ok & E & H). injection E as <- <-. cbn in H. discriminate.
    - intros t p al E. discriminate. }
  do 2 (eapply G; [vm_compute; reflexivity|plain OK|]).
  split; exact I.
Qed.

(** ** Refuted *)

(** Expected: memory to which the application holds a handle stays usable.  One thread creates memory,
    removes its path and, still holding the handle, calls Open for that path.  Open fails because the
    object is gone, but the unfinished resource object unregisters the identifier it shares with the
    held one: containers in the held memory can no longer allocate (the next allocation terminates the
    process) and pointers into it are no longer recognised. *)
Definition removed_run : list label :=
  LCall 0 (Create 1) :: go 0 6 ++ LCall 0 (Remove 1) :: go 0 5 ++ LCall 0 (Open 1 true None) :: go 0 4.
Theorem C111_usable_after_remove_refuted :
  ~ (forall c ls s r, no_collision c -> single_threaded ls -> run c init ls = Some s -> dead s = false ->
       live s r -> registered c s r).
Proof.
  intros H.
  assert (E : exists s, run c0 init removed_run = Some s /\ dead s = false /\ held s 0 = 1 /\ reg s 1 = None /\ rpath (info s 0) = 1).
  { eexists. split; [vm_compute; reflexivity|]. repeat split. }
  destruct E as (s & R & D & L & N & P).
  assert (X : registered c0 s 0).
  { apply (H c0 removed_run s 0 c0_inj); auto; [|unfold live; lia].
    intros l I. cbn in I. repeat (destruct I as [<-|I]; [reflexivity|]). destruct I. }
  unfold registered in X. rewrite P in X. cbn in X. congruence.
Qed.

(** Expected: without Remove, what is held stays usable.  Thread 0 drops the last handle and is stopped
    before it unregisters.  Thread 1 opens the same path: the first attempt fails and unregisters the
    identifier, the second succeeds and registers new memory.  Thread 0 goes on and unregisters the new
    memory, to which thread 1 holds a handle. *)
Definition lost_run : list label :=
  LCall 0 (Create 1) :: go 0 6 ++ LRelease 0 0 ::
  LCall 1 (Open 1 true None) :: go 1 2 ++ LGo 1 false :: go 1 2 ++
  LCall 1 (Open 1 true None) :: go 1 6 ++ go 0 1.
Theorem C111_usable_during_drop_refuted :
  ~ (forall c ls s r, no_collision c -> never_removed ls -> run c init ls = Some s -> dead s = false ->
       live s r -> registered c s r).
Proof.
  intros H.
  assert (E : exists s, run c0 init lost_run = Some s /\ dead s = false /\ held s 1 = 1 /\ reg s 1 = None /\ rpath (info s 1) = 1).
  { eexists. split; [vm_compute; reflexivity|]. repeat split. }
  destruct E as (s & R & D & L & N & P).
  assert (X : registered c0 s 1).
  { apply (H c0 lost_run s 1 c0_inj); auto; [|unfold live; lia].
    intros t p I. cbn in I. repeat (destruct I as [I|I]; [discriminate|]). destruct I. }
  unfold registered in X. rewrite P in X. cbn in X. congruence.
Qed.

(** Expected: a path whose memory was removed can be created again.  While a handle to the removed
    memory is held, Create makes the new object and then terminates the process, because the identifier
    is still registered for the old one. *)
Definition recreate_run : list label :=
  LCall 0 (Create 1) :: go 0 6 ++ LCall 0 (Remove 1) :: go 0 5 ++ LCall 0 (Create 1) :: go 0 4.
Theorem C111_create_after_remove_refuted :
  ~ (forall c ls s, no_collision c -> single_threaded ls -> run c init ls = Some s -> along permitted c init ls ->
       dead s = false).
Proof.
  intros H.
  assert (E : exists s, run c0 init recreate_run = Some s /\ dead s = true).
  { eexists. split; [vm_compute; reflexivity|]. reflexivity. }
  destruct E as (s & R & D). assert (X : dead s = false); [|congruence].
  apply (H c0 recreate_run s c0_inj); auto.
  - intros l I. cbn in I. repeat (destruct I as [<-|I]; [reflexivity|]). destruct I.
  - assert (G : forall s l s1 rest, apply c0 s l = Some s1 ->
      (forall p, th s 0 <> TLook (RemoveStale p)) -> (forall t ok, l = LGo t ok -> t = 0 /\ ok = true) ->
      along permitted c0 s1 rest -> along permitted c0 s (l :: rest)).
    { clear. intros s l s1 rest A B C D. cbn [along]. rewrite A. split; auto. split.
      - intros p r (t & ok & E & T). destruct (C _ _ E) as [-> _]. destruct (B _ T).
      - intros t p al E. destruct (C _ _ E) as [_ X]. discriminate. }
    unfold recreate_run, go. cbn [repeat app].
    Ltac pl G := eapply G; [vm_compute; reflexivity|intros ?; cbn; discriminate|intros ? ? E; first [discriminate E|injection E; intros; subst; auto]|].
    do 18 (pl G). exact I.
Qed.

(** Expected: opening a path never terminates the process.  Thread 0 drops the last handle; before it has
    unregistered the memory, thread 1 opens the same path.  Its lookup no longer finds the old memory, so
    it maps the object anew and terminates the process, because the identifier is still registered. *)
Definition drop_open_run : list label :=
  LCall 0 (Create 1) :: go 0 6 ++ LRelease 0 0 :: LCall 1 (Open 1 true None) :: go 1 4.
Theorem C111_open_during_drop_refuted :
  ~ (forall c ls s, no_collision c -> never_removed ls -> run c init ls = Some s -> along permitted c init ls ->
       dead s = false).
Proof.
  intros H.
  assert (E : exists s, run c0 init drop_open_run = Some s /\ dead s = true).
  { eexists. split; [vm_compute; reflexivity|]. reflexivity. }
  destruct E as (s & R & D). assert (X : dead s = false); [|congruence].
  apply (H c0 drop_open_run s c0_inj); auto.
  - intros t p I. cbn in I. repeat (destruct I as [I|I]; [discriminate|]). destruct I.
  - assert (G : forall s l s1 rest, apply c0 s l = Some s1 ->
      (forall t ok, l = LGo t ok -> ok = true /\ forall p, th s t <> TLook (RemoveStale p)) ->
      along permitted c0 s1 rest -> along permitted c0 s (l :: rest)).
    { clear. intros s l s1 rest A C D. cbn [along]. rewrite A. split; auto. split.
      - intros p r (t & ok & E & T). destruct (C _ _ E) as [_ B]. destruct (B _ T).
      - intros t p al E. destruct (C _ _ E) as [X _]. discriminate. }
    unfold drop_open_run, go. cbn [repeat app].
    Ltac pl2 G := eapply G; [vm_compute; reflexivity|intros ? ? E; first [discriminate E|injection E; intros; subst; split; [reflexivity|intros ?; cbn; discriminate]]|].
    do 13 (pl2 G). exact I.
Qed.

(** Expected: Open with is_read_write gives memory that can be written.  If the process already opened
    the path for reading, Open returns that read-only mapping: the first write faults. *)
Definition read_first_run : list label :=
  LOther 1 (Some 5) :: LCall 0 (Open 1 false None) :: go 0 7 ++ LCall 0 (Open 1 true None) :: go 0 2.
Theorem C111_writable_refuted :
  ~ (forall c ls s l s' t o r, run c init ls = Some s -> single_threaded ls -> wants_write o = true ->
       returns c s l s' t o (Some r) -> rwr (info s' r) = true).
Proof.
  intros H.
  assert (E : exists s s', run c0 init read_first_run = Some s /\ apply c0 s (LGo 0 true) = Some s' /\
     th s' 0 = TDone (Open 1 true None) (Some 0) /\ th s 0 = TCheck (Open 1 true None) 0 /\ rwr (info s' 0) = false).
  { eexists. eexists. split; [vm_compute; reflexivity|]. split; [vm_compute; reflexivity|]. repeat split. }
  destruct E as (s & s' & R & A & T & T0 & W).
  assert (X : rwr (info s' 0) = true); [|congruence].
  apply (H c0 read_first_run s (LGo 0 true) s' 0 (Open 1 true None) 0); auto.
  - intros l I. cbn in I. repeat (destruct I as [<-|I]; [exact eq_refl || exact I|]). destruct I.
  - repeat split; auto. rewrite T0. discriminate.
Qed.

(** Expected: Open gives the object that is linked at the path now.  If another process unlinked and
    created the object anew while this process holds a handle, Open returns the old, unlinked memory. *)
Definition replaced_run : list label :=
  LOther 1 (Some 5) :: LCall 0 (Open 1 true None) :: go 0 7 ++ LOther 1 None :: LOther 1 (Some 5) ::
  LCall 0 (Open 1 true None) :: go 0 2.
Theorem C111_current_refuted :
  ~ (forall c ls s l s' t o r f, run c init ls = Some s -> never_removed ls ->
       returns c s l s' t o (Some r) -> files s' (opath o) = Some f -> ino f = rino (info s' r)).
Proof.
  intros H.
  assert (E : exists s s' f, run c0 init replaced_run = Some s /\ apply c0 s (LGo 0 true) = Some s' /\
     th s' 0 = TDone (Open 1 true None) (Some 0) /\ th s 0 = TCheck (Open 1 true None) 0 /\
     files s' 1 = Some f /\ ino f = 1 /\ rino (info s' 0) = 0).
  { eexists. eexists. eexists. split; [vm_compute; reflexivity|]. split; [vm_compute; reflexivity|]. repeat split. }
  destruct E as (s & s' & f & R & A & T & T0 & F & I1 & I2).
  assert (X : ino f = rino (info s' 0)); [|lia].
  apply (H c0 replaced_run s (LGo 0 true) s' 0 (Open 1 true None) 0 f); auto.
  - intros t p I. cbn in I. repeat (destruct I as [I|I]; [discriminate|]). destruct I.
  - repeat split; auto. rewrite T0. discriminate.
Qed.

(** Expected: RemoveStaleArtefacts removes only what nobody in the process owns, as it asserts.  The
    assertion is checked under the lock, the unlinking happens after it: thread 0 passes the check, thread
    1 creates the path and gets a handle, then thread 0 unlinks thread 1's new object. *)
Definition stale_run : list label :=
  LCall 0 (RemoveStale 1) :: go 0 2 ++ LCall 1 (Create 1) :: go 1 6 ++ go 0 1.
Theorem C111_stale_only_refuted :
  ~ (forall c ls s r, no_collision c -> never_removed ls -> run c init ls = Some s -> dead s = false ->
       (forall p, ~ In (LOther p None) ls) -> live s r -> files s (rpath (info s r)) <> None).
Proof.
  intros H.
  assert (E : exists s, run c0 init stale_run = Some s /\ dead s = false /\ held s 0 = 1 /\ files s 1 = None /\ rpath (info s 0) = 1).
  { eexists. split; [vm_compute; reflexivity|]. repeat split. }
  destruct E as (s & R & D & L & N & P).
  apply (H c0 stale_run s 0 c0_inj); auto.
  - intros t p I. cbn in I. repeat (destruct I as [I|I]; [discriminate|]). destruct I.
  - intros p I. cbn in I. repeat (destruct I as [I|I]; [discriminate|]). destruct I.
  - unfold live. lia.
  - now rewrite P.
Qed.

(** Expected: different paths do not disturb each other.  Identifiers are hashes of paths: if two paths
    have the same one, opening the second terminates the process. *)
Definition collision_run : list label :=
  LCall 0 (Create 1) :: go 0 6 ++ LCall 0 (Create 2) :: go 0 4.
Theorem C111_paths_independent_refuted :
  ~ (forall c ls s, run c init ls = Some s -> never_removed ls -> single_threaded ls ->
       (forall l, In l ls -> match l with LRelease _ _ => False | _ => True end) -> dead s = false).
Proof.
  intros H.
  assert (E : exists s, run (mkCfg (fun _ => 3) 7) init collision_run = Some s /\ dead s = true).
  { eexists. split; [vm_compute; reflexivity|]. reflexivity. }
  destruct E as (s & R & D). assert (X : dead s = false); [|congruence].
  apply (H _ collision_run s R).
  - intros t p I. cbn in I. repeat (destruct I as [I|I]; [discriminate|]). destruct I.
  - intros l I. cbn in I. repeat (destruct I as [<-|I]; [reflexivity|]). destruct I.
  - intros l I. cbn in I. repeat (destruct I as [<-|I]; [exact Logic.I|]). destruct I.
Qed.

Print Assumptions C111_no_dangling.
Print Assumptions C111_no_leak.
Print Assumptions C111_open_answer.
Print Assumptions C111_answer_usable.
Print Assumptions C111_create_new.
Print Assumptions C111_progress.
Print Assumptions C111_live_registered_partial.
Print Assumptions C111_one_mapping_partial.
Print Assumptions C111_no_termination_partial.
Print Assumptions C111_writable_partial.
Print Assumptions C111_current_partial.
Print Assumptions C111_stays_linked_partial.
Print Assumptions C111_usable_after_remove_refuted.
Print Assumptions C111_usable_during_drop_refuted.
Print Assumptions C111_create_after_remove_refuted.
Print Assumptions C111_open_during_drop_refuted.
Print Assumptions C111_writable_refuted.
Print Assumptions C111_current_refuted.
Print Assumptions C111_stale_only_refuted.
Print Assumptions C111_paths_independent_refuted.
