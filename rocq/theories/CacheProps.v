(** C85: sending to another process returns, and reaches a process that listens. *)
From Verif Require Import Base CacheModel.

(** ** Specification vocabulary *)
Inductive reach (up : nat -> bool) (ok : st -> label -> Prop) : list label -> st -> Prop :=
| reach_nil : reach up ok [] (init up)
| reach_snoc ls s l s' : reach up ok ls s -> ok s l -> step s l = Some s' -> reach up ok (ls ++ [l]) s'.
Definition any (s : st) (l : label) : Prop := True.

(** the engine thread itself neither sends nor drops connections *)
Definition engine_free (s : st) (l : label) : Prop :=
  match l with Call t _ => t <> 0 | Remove _ => False | _ => True end.
(** a connection to a listening process is made within 500 ms if the engine runs *)
Definition timely (s : st) (l : label) : Prop :=
  match l with
  | Timeout t => match pcs s t with GetWait p _ _ => listening s p = false \/ pcs s 0 <> Idle | _ => True end
  | _ => True
  end.
Definition good (s : st) (l : label) : Prop := engine_free s l /\ timely s l.
Definition stays_up (p : nat) (s : st) (l : label) : Prop := good s l /\ l <> PeerDown p.
Definition stays_down (p : nat) (s : st) (l : label) : Prop := l <> PeerUp p.

Fixpoint count (f : event -> bool) (l : list event) : nat :=
  match l with [] => 0 | e :: r => (if f e then 1 else 0) + count f r end.
Definition returned (t p : nat) (e : event) : bool := match e with Returned t' p' _ => (t' =? t) && (p' =? p) | _ => false end.
Definition timed_out (t p : nat) (e : event) : bool := match e with TimedOut t' p' => (t' =? t) && (p' =? p) | _ => false end.

(** ** The invariant *)
Definition in_get (x : pc) (p c : nat) (old : option nat) : Prop := x = GetWait p c old \/ x = GetEnd p c old.
Definition holds (x : pc) : Prop := match x with GetWait _ _ _ | GetEnd _ _ _ | RemWait _ _ => True | _ => False end.

Record inv (s : st) : Prop := mkInv {
  v_hold : forall t, holds (pcs s t) <-> holder s = Some t;
  v_new : forall t p c old, in_get (pcs s t) p c old ->
    c < fresh s /\ peer s c = p /\ (forall q, cache s q <> Some c) /\ cstate s c <> CStopping /\ cache s p = None /\
    (t = 0 -> cstate s c = CStarting);
  v_old : forall t p c o, in_get (pcs s t) p c (Some o) ->
    o < fresh s /\ o <> c /\ (forall q, cache s q <> Some o) /\ (cstate s o = CStopping \/ cstate s o = CStopped) /\
    (t = 0 -> cstate s o = CStopped);
  v_rem : forall t p, pcs s t = RemLock p -> t = 0;
  v_remw : forall t p c, pcs s t = RemWait p c -> t = 0 /\ cache s p = Some c /\ cstate s c = CStopped;
  v_cache : forall p c, cache s p = Some c -> c < fresh s /\ peer s c = p /\ cstate s c <> CStopping;
  v_fresh : forall c, fresh s <= c -> cstate s c = CStopped;
  v_queue : forall x, In x (queue s) -> cmd_of x < fresh s;
  v_stopping : forall c, cstate s c = CStopping <-> In (Disconnect c) (queue s);
  v_starting : forall c, cstate s c = CStarting -> In (Connect c) (queue s);
  v_abort : aborted s = false
}.

Lemma in_drop c q x : In x (drop_cmds c q) <-> In x q /\ cmd_of x <> c.
Proof. unfold drop_cmds. rewrite filter_In. rewrite negb_true_iff, Nat.eqb_neq. tauto. Qed.
Lemma in_remove_nth {A} i (l : list A) x : In x (remove_nth i l) -> In x l.
Proof. revert i; induction l as [|y r IH]; intros [|i]; cbn [remove_nth In]; try tauto. intros [->|H]; [tauto|]. right. eapply IH; eassumption. Qed.
Lemma in_remove_nth_back {A} i (l : list A) x y : nth_error l i = Some y -> In x l -> x <> y -> In x (remove_nth i l).
Proof.
  revert i; induction l as [|z r IH]; intros [|i] E H N; cbn in *; try tauto.
  - injection E as ->. destruct H as [->|H]; [contradiction|assumption].
  - destruct H as [->|H]; [left; reflexivity|]. right. eapply IH; eassumption.
Qed.
Lemma in_snoc {A} (x : A) l y : In x (l ++ [y]) <-> In x l \/ x = y.
Proof. rewrite in_app_iff. cbn [In]. intuition congruence. Qed.

Ltac fup t x := destruct (Nat.eq_dec t x) as [->|?]; [rewrite ?fupd_eq in *|rewrite ?fupd_neq in * by assumption].
Ltac proj := cbn [holder cache cstate peer fresh queue pcs listening aborted log set_pc set_holder set_cache note] in *.

(** the engine stops a connection, or a command or lost peer stops it *)
Lemma inv_stopped s c :
  inv s -> (forall t p old, ~ in_get (pcs s t) p c old) ->
  inv (mkSt (holder s) (cache s) (fupd (cstate s) c CStopped) (peer s) (fresh s) (drop_cmds c (queue s)) (pcs s) (listening s) (aborted s) (log s)).
Proof.
  intros I N. destruct I. constructor; proj; try assumption.
  - intros t p d old G. destruct (v_new0 t p d old G) as (A1 & A2 & A3 & A4 & A5 & A6).
    assert (d <> c) by (intros ->; apply (N t p old G)). rewrite fupd_neq by assumption. auto 10.
  - intros t p d o G. destruct (v_old0 t p d o G) as (A1 & A2 & A3 & A4 & A5). do 3 (split; [assumption|]). fup o c; auto.
  - intros t p d E. destruct (v_remw0 t p d E) as (A1 & A2 & A3). do 2 (split; [assumption|]). fup d c; auto.
  - intros p d E. destruct (v_cache0 p d E) as (A1 & A2 & A3). do 2 (split; [assumption|]). fup d c; [discriminate|assumption].
  - intros d H. fup d c; [reflexivity|auto].
  - intros x H. apply in_drop in H as (H & _). auto.
  - intros d. rewrite in_drop. fup d c.
    + split; [discriminate|]. intros (_ & H). cbn in H. contradiction.
    + rewrite v_stopping0. cbn [cmd_of]. tauto.
  - intros d. rewrite in_drop. fup d c; [discriminate|]. intros H. split; [auto|]. cbn [cmd_of]. assumption.
Qed.

(** a user thread asks a cached connection to stop *)
Lemma inv_stop s t c :
  inv s -> c < fresh s -> cstate s c <> CStopping -> (forall t' p old, ~ in_get (pcs s t') p c old) ->
  (forall t' p, pcs s t' <> RemWait p c) -> (t <> 0 -> forall p, cache s p <> Some c) -> inv (stop t c s).
Proof.
  intros I Hc NS N NR NC. unfold stop. destruct (cstate s c) eqn:E; try assumption.
  - destruct (t =? 0) eqn:T; [apply inv_stopped; assumption|]. apply Nat.eqb_neq in T. specialize (NC T).
    destruct I. constructor; proj; try assumption.
    + intros t' p d old G. destruct (v_new0 t' p d old G) as (A1 & A2 & A3 & A4 & A5 & A6).
      assert (d <> c) by (intros ->; apply (N t' p old G)). rewrite fupd_neq by assumption. auto 10.
    + intros t' p d o G. destruct (v_old0 t' p d o G) as (A1 & A2 & A3 & A4 & A5). do 3 (split; [assumption|]).
      assert (o <> c) by (intros ->; destruct A4; congruence). rewrite fupd_neq by assumption. auto.
    + intros t' p d G. destruct (v_remw0 t' p d G) as (A1 & A2 & A3). do 2 (split; [assumption|]).
      assert (d <> c) by (intros ->; apply (NR _ _ G)). rewrite fupd_neq by assumption. auto.
    + intros p d G. destruct (v_cache0 p d G) as (A1 & A2 & A3). do 2 (split; [assumption|]).
      assert (d <> c) by (intros ->; apply (NC _ G)). rewrite fupd_neq by assumption. auto.
    + intros d H. rewrite fupd_neq by lia. auto.
    + intros x H. apply in_snoc in H as [H| ->]; [auto|assumption].
    + intros d. rewrite in_snoc. fup d c; [split; [right; reflexivity|reflexivity]|].
      rewrite v_stopping0. split; [tauto|]. intros [?|G]; [assumption|congruence].
    + intros d. rewrite in_snoc. fup d c; [discriminate|auto].
  - destruct (t =? 0) eqn:T; [apply inv_stopped; assumption|]. apply Nat.eqb_neq in T. specialize (NC T).
    destruct I. constructor; proj; try assumption.
    + intros t' p d old G. destruct (v_new0 t' p d old G) as (A1 & A2 & A3 & A4 & A5 & A6).
      assert (d <> c) by (intros ->; apply (N t' p old G)). rewrite fupd_neq by assumption. auto 10.
    + intros t' p d o G. destruct (v_old0 t' p d o G) as (A1 & A2 & A3 & A4 & A5). do 3 (split; [assumption|]).
      assert (o <> c) by (intros ->; destruct A4; congruence). rewrite fupd_neq by assumption. auto.
    + intros t' p d G. destruct (v_remw0 t' p d G) as (A1 & A2 & A3). do 2 (split; [assumption|]).
      assert (d <> c) by (intros ->; apply (NR _ _ G)). rewrite fupd_neq by assumption. auto.
    + intros p d G. destruct (v_cache0 p d G) as (A1 & A2 & A3). do 2 (split; [assumption|]).
      assert (d <> c) by (intros ->; apply (NC _ G)). rewrite fupd_neq by assumption. auto.
    + intros d H. rewrite fupd_neq by lia. auto.
    + intros x H. apply in_snoc in H as [H| ->]; [auto|assumption].
    + intros d. rewrite in_snoc. fup d c; [split; [right; reflexivity|reflexivity]|].
      rewrite v_stopping0. split; [tauto|]. intros [?|G]; [assumption|congruence].
    + intros d. rewrite in_snoc. fup d c; [discriminate|auto].
Qed.

Lemma inv_uncache s p : inv s -> (forall t q c, pcs s t <> RemWait q c) -> inv (set_cache p None s).
Proof.
  intros I N. destruct I. constructor; proj; try assumption.
  - intros t q c old G. destruct (v_new0 t q c old G) as (A1 & A2 & A3 & A4 & A5 & A6). do 2 (split; [assumption|]).
    split; [intros r; fup r p; [discriminate|auto]|]. split; [assumption|]. split; [|assumption]. fup q p; auto.
  - intros t q c o G. destruct (v_old0 t q c o G) as (A1 & A2 & A3 & A4 & A5). do 2 (split; [assumption|]).
    split; [intros r; fup r p; [discriminate|auto]|]. auto.
  - intros t q c G. exfalso. apply (N _ _ _ G).
  - intros q c. fup q p; [discriminate|auto].
Qed.

(** with the mutex free nobody is inside *)
Lemma nobody_inside s : inv s -> holder s = None -> forall t, ~ holds (pcs s t).
Proof. intros I E t H. apply (v_hold _ I) in H. congruence. Qed.

Lemma not_in_get x p c old : ~ holds x -> ~ in_get x p c old.
Proof. intros H [-> | ->]; apply H; exact Logic.I. Qed.

Lemma inv_create s t p old :
  inv s -> holder s = None -> cache s p = None ->
  (forall o, old = Some o -> o < fresh s /\ (forall q, cache s q <> Some o) /\ (cstate s o = CStopping \/ cstate s o = CStopped) /\ (t = 0 -> cstate s o = CStopped)) ->
  inv (create t p old (set_holder (Some t) s)).
Proof.
  intros I E Ec Ho. pose proof (nobody_inside _ I E) as NI. destruct I. unfold create. constructor; proj; try assumption.
  - intros t'. fup t' t; [split; [reflexivity|intros _; exact Logic.I]|]. split; [intros H; exfalso; apply (NI _ H)|congruence].
  - intros t' q c o G. fup t' t; [|exfalso; apply (not_in_get _ _ _ _ (NI t') G)].
    assert (c = fresh s /\ q = p) as (-> & ->) by (destruct G as [G|G]; inversion G; auto).
    rewrite !fupd_eq. split; [lia|]. split; [reflexivity|]. split; [intros r G'; apply v_cache0 in G' as (A & _); lia|].
    split; [discriminate|]. auto.
  - intros t' q c o G. fup t' t; [|exfalso; apply (not_in_get _ _ _ _ (NI t') G)].
    assert (c = fresh s /\ old = Some o) as (-> & ->) by (destruct G as [G|G]; inversion G; auto).
    destruct (Ho o eq_refl) as (A1 & A2 & A3 & A4). rewrite fupd_neq by lia. split; [lia|]. split; [lia|]. auto.
  - intros t' q G. fup t' t; [discriminate|eauto].
  - intros t' q c G. fup t' t; [discriminate|]. exfalso. apply (NI t'). rewrite G. exact Logic.I.
  - intros q c G. destruct (v_cache0 q c G) as (A1 & A2 & A3). rewrite !fupd_neq by lia. auto.
  - intros c H. rewrite fupd_neq by lia. apply v_fresh0. lia.
  - intros x H. apply in_snoc in H as [H| ->]; [specialize (v_queue0 _ H); lia|cbn; lia].
  - intros c. rewrite in_snoc. fup c (fresh s).
    + split; [discriminate|]. intros [H|H]; [apply v_queue0 in H; cbn in H; lia|discriminate].
    + rewrite v_stopping0. intuition congruence.
  - intros c. rewrite in_snoc. fup c (fresh s); auto.
Qed.

(** a step of a thread that changes neither what it holds nor any connection *)
Lemma inv_pc s t x :
  inv s -> ~ holds (pcs s t) -> ~ holds x -> (forall p, x = RemLock p -> t = 0) -> inv (set_pc t x s).
Proof.
  intros I H1 H2 H3. destruct I. constructor; proj; try assumption.
  - intros t'. fup t' t; [|apply v_hold0]. rewrite <- v_hold0. tauto.
  - intros t' p c old G. fup t' t; [exfalso; apply (not_in_get _ _ _ _ H2 G)|eapply v_new0; eassumption].
  - intros t' p c o G. fup t' t; [exfalso; apply (not_in_get _ _ _ _ H2 G)|eapply v_old0; eassumption].
  - intros t' p G. fup t' t; [eapply H3; eassumption|eapply v_rem0; eassumption].
  - intros t' p c G. fup t' t; [rewrite G in H2; exfalso; apply H2; exact Logic.I|eapply v_remw0; eassumption].
Qed.

Lemma inv_same s s' :
  inv s -> holder s' = holder s -> cache s' = cache s -> cstate s' = cstate s -> peer s' = peer s -> fresh s' = fresh s ->
  queue s' = queue s -> pcs s' = pcs s -> aborted s' = aborted s -> inv s'.
Proof.
  intros I H1 H2 H3 H4 H5 H6 H7 H8. destruct I.
  constructor; rewrite ?H1, ?H2, ?H3, ?H4, ?H5, ?H6, ?H7, ?H8 in *; assumption.
Qed.

(** leaving the critical section *)
Lemma inv_leave s t cs : inv s -> holds (pcs s t) ->
  (forall p c, cs p = Some c -> c < fresh s /\ peer s c = p /\ cstate s c <> CStopping) ->
  inv (mkSt None cs (cstate s) (peer s) (fresh s) (queue s) (fupd (pcs s) t Idle) (listening s) (aborted s) (log s)).
Proof.
  intros I H HC. assert (E : holder s = Some t) by (apply (v_hold _ I); assumption). destruct I.
  assert (O : forall t', holds (fupd (pcs s) t Idle t') -> False).
  { intros t' H'. fup t' t; [exact H'|]. apply v_hold0 in H'. congruence. }
  constructor; proj; try assumption.
  - intros t'. split; [intros H'; exfalso; eapply O; eassumption|discriminate].
  - intros t' p c old [G|G]; exfalso; apply (O t'); rewrite G; exact Logic.I.
  - intros t' p c o [G|G]; exfalso; apply (O t'); rewrite G; exact Logic.I.
  - intros t' p G. fup t' t; [discriminate|eapply v_rem0; eassumption].
  - intros t' p c G. exfalso; apply (O t'); rewrite G; exact Logic.I.
Qed.

(** from polling to returning *)
Lemma inv_end s t p c old : inv s -> pcs s t = GetWait p c old -> inv (set_pc t (GetEnd p c old) s).
Proof.
  intros I E. destruct I. constructor; proj; try assumption.
  - intros t'. fup t' t; [|apply v_hold0]. rewrite <- v_hold0, E. cbn [holds]. tauto.
  - intros t' q d o G. fup t' t; [|eapply v_new0; eassumption]. eapply (v_new0 t q d o). left. destruct G as [G|G]; inversion G; subst; assumption.
  - intros t' q d o G. fup t' t; [|eapply v_old0; eassumption]. eapply (v_old0 t q d o). left. destruct G as [G|G]; inversion G; subst; assumption.
  - intros t' q G. fup t' t; [discriminate|eapply v_rem0; eassumption].
  - intros t' q d G. fup t' t; [discriminate|eapply v_remw0; eassumption].
Qed.

Lemma stop_fields t c s : holder (stop t c s) = holder s /\ cache (stop t c s) = cache s /\ fresh (stop t c s) = fresh s /\
  pcs (stop t c s) = pcs s /\ peer (stop t c s) = peer s /\ listening (stop t c s) = listening s /\ log (stop t c s) = log s.
Proof. unfold stop. destruct (cstate s c); try destruct (t =? 0); repeat split; reflexivity. Qed.

Lemma stop_result t c s : cstate s c <> CStopping ->
  (cstate (stop t c s) c = CStopping \/ cstate (stop t c s) c = CStopped) /\ (t = 0 -> cstate (stop t c s) c = CStopped).
Proof.
  intros H. unfold stop. destruct (cstate s c) eqn:E; try congruence.
  - destruct (Nat.eqb_spec t 0); proj; rewrite fupd_eq; [tauto|tauto].
  - destruct (Nat.eqb_spec t 0); proj; rewrite fupd_eq; [tauto|tauto].
  - tauto.
Qed.

Lemma stop_commute_holder t c h s : stop t c (set_holder h s) = set_holder h (stop t c s).
Proof. unfold stop, set_holder; proj. destruct (cstate s c); try reflexivity; destruct (t =? 0); reflexivity. Qed.

Lemma inv_step s l s' : inv s -> step s l = Some s' -> inv s'.
Proof.
  intros I S. destruct l as [t p|p|t|t|t|t|i|c|p|p]; cbn [step] in S.
  - destruct (pcs s t) eqn:E; try discriminate. injection S as <-. apply inv_pc; [assumption|rewrite E; exact (fun x => x)|exact (fun x => x)|discriminate].
  - destruct (pcs s 0) eqn:E; try discriminate. injection S as <-. apply inv_pc; [assumption|rewrite E; exact (fun x => x)|exact (fun x => x)|auto].
  - (* Lock *)
    destruct (holder s) eqn:Eh; [discriminate|]. pose proof (nobody_inside _ I Eh) as NI.
    destruct (pcs s t) eqn:E; try discriminate.
    + destruct (cache s p) as [c|] eqn:Ec.
      * destruct (v_cache _ I _ _ Ec) as (A1 & A2 & A3).
        destruct (is_ready (cstate s c)); injection S as <-.
        -- eapply (inv_same (set_pc t Idle s)); try reflexivity. apply inv_pc; [assumption|rewrite E; exact (fun x => x)|exact (fun x => x)|discriminate].
        -- rewrite stop_commute_holder.
           (* first the connection leaves the cache, then it is stopped *)
           assert (X : set_cache p None (set_holder (Some t) (stop t c s)) = set_holder (Some t) (stop t c (set_cache p None s))).
           { unfold stop, set_holder, set_cache; proj. destruct (cstate s c); try reflexivity; destruct (t =? 0); reflexivity. }
           rewrite X. clear X.
           assert (I1 : inv (set_cache p None s)).
           { apply inv_uncache; [assumption|]. intros t' q d G. apply (NI t'). rewrite G. exact Logic.I. }
           assert (NC : forall q, cache (set_cache p None s) q <> Some c).
           { intros q G. proj. fup q p; [discriminate|]. destruct (v_cache _ I _ _ G) as (_ & B & _). congruence. }
           assert (I2 : inv (stop t c (set_cache p None s))).
           { apply inv_stop; try assumption.
             - intros t' q old. apply not_in_get. apply NI.
             - intros t' q G. apply (NI t'). change (pcs (set_cache p None s)) with (pcs s) in G. rewrite G. exact Logic.I.
             - intros _; assumption. }
           destruct (stop_fields t c (set_cache p None s)) as (F1 & F2 & F3 & F4 & F5 & _).
           apply inv_create; [assumption|rewrite F1; assumption|rewrite F2; proj; apply fupd_eq|].
           intros o Eo; injection Eo as <-. rewrite F2, F3. split; [assumption|]. split; [assumption|].
           apply stop_result. assumption.
      * injection S as <-. apply inv_create; try assumption. discriminate.
    + (* RemLock *)
      assert (t = 0) as -> by (eapply (v_rem _ I); eassumption).
      destruct (cache s p) as [c|] eqn:Ec; injection S as <-.
      * destruct (v_cache _ I _ _ Ec) as (A1 & A2 & A3). rewrite stop_commute_holder.
        assert (I2 : inv (stop 0 c s)).
        { apply inv_stop; try assumption.
          - intros t' q old. apply not_in_get. apply NI.
          - intros t' q G. apply (NI t'). rewrite G. exact Logic.I.
          - congruence. }
        destruct (stop_fields 0 c s) as (F1 & F2 & F3 & F4 & F5 & _).
        destruct (stop_result 0 c s A3) as (_ & R). specialize (R eq_refl). remember (stop 0 c s) as s1. clear Heqs1.
        destruct I2. constructor; proj; try assumption.
        -- intros t'. fup t' 0; [split; [reflexivity|intros _; exact Logic.I]|]. rewrite F4. split; [intros H; exfalso; apply (NI _ H)|congruence].
        -- intros t' q d o G. fup t' 0; [destruct G; discriminate|]. rewrite F4 in G. exfalso; apply (not_in_get _ _ _ _ (NI t') G).
        -- intros t' q d o G. fup t' 0; [destruct G; discriminate|]. rewrite F4 in G. exfalso; apply (not_in_get _ _ _ _ (NI t') G).
        -- intros t' q G. fup t' 0; [reflexivity|eauto].
        -- intros t' q d G. fup t' 0.
           ++ injection G as <- <-. rewrite F2. auto.
           ++ rewrite F4 in G. exfalso. apply (NI t'). rewrite G. exact Logic.I.
      * apply inv_pc; [assumption|rewrite E; exact (fun x => x)|exact (fun x => x)|discriminate].
  - (* Poll *)
    destruct (pcs s t) eqn:E; try discriminate.
    + destruct (cstate s c) eqn:Es; try discriminate; injection S as <-; apply inv_end; assumption.
    + destruct (cstate s c) eqn:Es; try discriminate. injection S as <-.
      eapply (inv_same _ _ (inv_leave s t (fupd (cache s) p None) I _ _)); reflexivity.
      Unshelve. rewrite E; exact Logic.I. intros q d. fup q p; [discriminate|]. apply (v_cache _ I).
  - (* Timeout *)
    destruct (pcs s t) eqn:E; try discriminate.
    + destruct (cstate s c) eqn:Es; try discriminate; injection S as <-.
      eapply (inv_same _ _ (inv_end _ _ _ _ _ I E)); reflexivity.
    + destruct (v_remw _ I _ _ _ E) as (_ & _ & Es). rewrite Es in S. discriminate.
  - (* Return *)
    destruct (pcs s t) eqn:E; try discriminate.
    destruct (match old with Some o => match cstate s o with CStopped => true | _ => false end | None => true end); [|discriminate]. injection S as <-.
    destruct (v_new _ I t p c old (or_intror E)) as (A1 & A2 & A3 & A4 & _).
    eapply (inv_same _ _ (inv_leave s t (fupd (cache s) p (Some c)) I _ _)); reflexivity.
    Unshelve. rewrite E; exact Logic.I. intros q d. fup q p; [intros G; injection G as <-; auto|]. apply (v_cache _ I).
  - (* Engine *)
    destruct (pcs s 0) eqn:E0; try discriminate. destruct (nth_error (queue s) i) as [[c|c]|] eqn:En; try discriminate.
    + destruct (listening s (peer s c)); [|injection S as <-; assumption]. injection S as <-.
      assert (Hin : In (Connect c) (queue s)) by (eapply nth_error_In; eassumption).
      destruct I. destruct (cstate s c) eqn:Es.
      * constructor; proj; try assumption.
        -- intros t p d old G. destruct (v_new0 t p d old G) as (A1 & A2 & A3 & A4 & A5 & A6).
           do 3 (split; [assumption|]). assert (Ht : t <> 0) by (intros ->; rewrite E0 in G; destruct G; discriminate).
           split; [fup d c; [discriminate|assumption]|]. split; [assumption|tauto].
        -- intros t p d o G. destruct (v_old0 t p d o G) as (A1 & A2 & A3 & A4 & A5). do 3 (split; [assumption|]).
           assert (o <> c) by (intros ->; destruct A4; congruence). rewrite fupd_neq by assumption. auto.
        -- intros t p d G. destruct (v_remw0 t p d G) as (-> & _). congruence.
        -- intros p d G. destruct (v_cache0 p d G) as (A1 & A2 & A3). do 2 (split; [assumption|]). fup d c; [discriminate|assumption].
        -- intros d H. rewrite fupd_neq; [auto|]. intros ->. rewrite v_fresh0 in Es by assumption. discriminate.
        -- intros x H. apply in_remove_nth in H. auto.
        -- intros d. fup d c.
           ++ split; [discriminate|]. intros H. apply in_remove_nth in H. apply v_stopping0 in H. congruence.
           ++ rewrite v_stopping0. split; [|apply in_remove_nth]. intros H. eapply in_remove_nth_back; [eassumption|assumption|discriminate].
        -- intros d. fup d c; [discriminate|]. intros H. eapply in_remove_nth_back; [eassumption|auto|congruence].
      * constructor; proj; try assumption.
        -- intros x H. apply in_remove_nth in H. auto.
        -- intros d. rewrite v_stopping0. split; [|apply in_remove_nth]. intros H. eapply in_remove_nth_back; [eassumption|assumption|discriminate].
        -- intros d H. eapply in_remove_nth_back; [eassumption|auto|congruence].
      * constructor; proj; try assumption.
        -- intros x H. apply in_remove_nth in H. auto.
        -- intros d. rewrite v_stopping0. split; [|apply in_remove_nth]. intros H. eapply in_remove_nth_back; [eassumption|assumption|discriminate].
        -- intros d H. eapply in_remove_nth_back; [eassumption|auto|congruence].
      * constructor; proj; try assumption.
        -- intros x H. apply in_remove_nth in H. auto.
        -- intros d. rewrite v_stopping0. split; [|apply in_remove_nth]. intros H. eapply in_remove_nth_back; [eassumption|assumption|discriminate].
        -- intros d H. eapply in_remove_nth_back; [eassumption|auto|congruence].
    + injection S as <-. apply inv_stopped; [assumption|]. intros t p old G.
      assert (Es : cstate s c = CStopping) by (apply (v_stopping _ I); eapply nth_error_In; eassumption).
      destruct (v_new _ I _ _ _ _ G) as (_ & _ & _ & A4 & _). contradiction.
  - (* PeerLost *)
    destruct (pcs s 0) eqn:E0; try discriminate. destruct (cstate s c) eqn:Es; try discriminate.
    destruct (listening s (peer s c)); [discriminate|]. injection S as <-.
    destruct I. constructor; proj; try assumption.
    + intros t p d old G. destruct (v_new0 t p d old G) as (A1 & A2 & A3 & A4 & A5 & A6).
      assert (Ht : t <> 0) by (intros ->; rewrite E0 in G; destruct G; discriminate).
      do 3 (split; [assumption|]). split; [fup d c; [discriminate|assumption]|]. split; [assumption|tauto].
    + intros t p d o G. destruct (v_old0 t p d o G) as (A1 & A2 & A3 & A4 & A5). do 3 (split; [assumption|]).
      assert (o <> c) by (intros ->; destruct A4; congruence). rewrite fupd_neq by assumption. auto.
    + intros t p d G. destruct (v_remw0 t p d G) as (-> & _). congruence.
    + intros p d G. destruct (v_cache0 p d G) as (A1 & A2 & A3). do 2 (split; [assumption|]). fup d c; [discriminate|assumption].
    + intros d H. fup d c; [reflexivity|auto].
    + intros x H. apply in_drop in H as (H & _). auto.
    + intros d. rewrite in_drop. fup d c.
      * split; [discriminate|]. intros (_ & H). cbn in H. contradiction.
      * rewrite v_stopping0. cbn [cmd_of]. tauto.
    + intros d. rewrite in_drop. fup d c; [discriminate|]. intros H. split; [auto|]. cbn [cmd_of]. assumption.
  - injection S as <-. eapply (inv_same _ _ I); reflexivity.
  - injection S as <-. eapply (inv_same _ _ I); reflexivity.
Qed.

Lemma inv_init up : inv (init up).
Proof.
  constructor; cbn; try tauto; try discriminate.
  - intros t. split; [contradiction|discriminate].
  - intros t p c old [G|G]; discriminate.
  - intros t p c o [G|G]; discriminate.
  - intros c. split; [discriminate|contradiction].
Qed.

Lemma reach_inv up ok ls s : reach up ok ls s -> inv s.
Proof. induction 1 as [|ls s l s' R IH OK S]; [apply inv_init|]. eapply inv_step; eassumption. Qed.

(** ** Executions from a state *)
Inductive exec (ok : st -> label -> Prop) : st -> list label -> st -> Prop :=
| exec_nil s : exec ok s [] s
| exec_cons s l s1 ls s2 : ok s l -> step s l = Some s1 -> exec ok s1 ls s2 -> exec ok s (l :: ls) s2.

Lemma exec_app ok s ls s1 ls' s2 : exec ok s ls s1 -> exec ok s1 ls' s2 -> exec ok s (ls ++ ls') s2.
Proof. induction 1; intros H'; cbn; [assumption|]. econstructor; eauto. Qed.

(** ** Dropping a connection never terminates the process *)
Theorem C85_never_terminates up ls s : reach up any ls s -> aborted s = false.
Proof. intros R. apply (v_abort _ (reach_inv _ _ _ _ R)). Qed.

(** ** The engine's own sends *)
(** What code on the engine thread (a receive handler) sends without a
    ready connection is always lost, after the full timeout, whether or not
    the other process listens. *)
Theorem C85_send_from_handler_lost up ls s s' :
  reach up any ls s -> step s (Return 0) = Some s' -> exists p, log s' = Returned 0 p false :: log s.
Proof.
  intros R S. pose proof (reach_inv _ _ _ _ R) as I. cbn [step] in S. destruct (pcs s 0) eqn:E; try discriminate.
  destruct (match old with Some o => match cstate s o with CStopped => true | _ => false end | None => true end); [|discriminate].
  injection S as <-. destruct (v_new _ I 0 p c old (or_intror E)) as (_ & _ & _ & _ & _ & A). rewrite (A eq_refl). exists p. reflexivity.
Qed.

(** ... and takes the full timeout *)
Theorem C85_send_from_handler_waits up ls s : reach up any ls s -> step s (Poll 0) <> None -> exists p c, pcs s 0 = RemWait p c.
Proof.
  intros R S. pose proof (reach_inv _ _ _ _ R) as I. cbn [step] in S. destruct (pcs s 0) eqn:E; try congruence.
  - destruct (v_new _ I 0 p c old (or_introl E)) as (_ & _ & _ & _ & _ & A). rewrite (A eq_refl) in S. congruence.
  - eauto.
Qed.

(** ** A process that does not listen *)
Record dead (p : nat) (s : st) : Prop := mkDead {
  d_inv : inv s;
  d_up : listening s p = false;
  d_ready : forall c, c < fresh s -> peer s c = p -> cstate s c <> CReady;
  d_new : forall t c old, in_get (pcs s t) p c old -> cstate s c = CStarting;
  d_count : forall t, count (returned t p) (log s) + (match pcs s t with GetEnd q _ _ => if q =? p then 1 else 0 | _ => 0 end)
                      = count (timed_out t p) (log s);
  d_false : forall t b, In (Returned t p b) (log s) -> b = false
}.

Lemma dead_step p s l s' : dead p s -> stays_down p s l -> step s l = Some s' -> dead p s'.
Proof.
  intros D OK S. pose proof (inv_step _ _ _ (d_inv _ _ D) S) as I'. pose proof (d_inv _ _ D) as I.
  destruct D as [_ Du Dr Dn Dc Df].
  destruct l as [t q|q|t|t|t|t|i|c|q|q]; cbn [step] in S.
  - destruct (pcs s t) eqn:E; try discriminate. injection S as <-. constructor; proj; try assumption.
    + intros t' c old G. fup t' t; [destruct G; discriminate|eauto].
    + intros t'. specialize (Dc t'). fup t' t; [rewrite E in Dc; assumption|assumption].
  - destruct (pcs s 0) eqn:E; try discriminate. injection S as <-. constructor; proj; try assumption.
    + intros t' c old G. fup t' 0; [destruct G; discriminate|eauto].
    + intros t'. specialize (Dc t'). fup t' 0; [rewrite E in Dc; assumption|assumption].
  - destruct (holder s) eqn:Eh; [discriminate|]. pose proof (nobody_inside _ I Eh) as NI.
    destruct (pcs s t) eqn:E; try discriminate.
    + assert (CR : forall s1 old, fresh s1 = fresh s -> peer s1 = peer s -> pcs s1 = pcs s -> log s1 = log s -> listening s1 = listening s ->
                  (forall c, c < fresh s -> cstate s1 c = CReady -> cstate s c = CReady) ->
                  inv (create t p0 old s1) -> dead p (create t p0 old s1)).
      { intros s1 old F1 F2 F3 F4 F5 F6 IC. unfold create in *. constructor; proj; rewrite ?F1, ?F2, ?F3, ?F4, ?F5 in *; try assumption.
        - intros c Hc Hp. fup c (fresh s); [discriminate|]. intros G. apply (Dr c); [lia|assumption|]. apply F6; [lia|assumption].
        - intros t' c o G. fup t' t; [|exfalso; apply (not_in_get _ _ _ _ (NI t') G)].
          assert (c = fresh s) as -> by (destruct G as [G|G]; inversion G; auto). apply fupd_eq.
        - intros t'. specialize (Dc t'). fup t' t; [rewrite E in Dc; assumption|assumption]. }
      destruct (cache s p0) as [c|] eqn:Ec.
      * destruct (is_ready (cstate s c)) eqn:Er; injection S as <-.
        -- destruct (v_cache _ I _ _ Ec) as (A1 & A2 & A3).
           assert (p0 <> p). { intros ->. apply (Dr c A1 A2). destruct (cstate s c); try discriminate; reflexivity. }
           constructor; proj; try assumption.
           ++ intros t' d old G. fup t' t; [destruct G; discriminate|eauto].
           ++ intros t'. cbn [count returned timed_out]. rewrite (proj2 (Nat.eqb_neq p0 p)) by assumption. rewrite andb_false_r.
              specialize (Dc t'). fup t' t; [rewrite E in Dc; assumption|assumption].
           ++ intros t' b [G|G]; [injection G as _ G _; congruence|eauto].
        -- destruct (stop_fields t c (set_holder (Some t) s)) as (F1 & F2 & F3 & F4 & F5 & F6 & F7).
           apply CR; proj; rewrite ?F1, ?F2, ?F3, ?F4, ?F5, ?F6, ?F7; try reflexivity; [|assumption].
           intros d Hd G. unfold stop in G; proj. destruct (cstate s c); proj; try assumption; destruct (t =? 0); proj; fup d c; try discriminate; assumption.
      * injection S as <-. apply CR; try reflexivity; [auto|assumption].
    + assert (CR : forall s1, fresh s1 = fresh s -> peer s1 = peer s -> pcs s1 = pcs s -> log s1 = log s -> listening s1 = listening s ->
                  (forall d, d < fresh s -> cstate s1 d = CReady -> cstate s d = CReady) ->
                  forall x, ~ (exists q c old, in_get x q c old) -> inv (set_pc t x s1) -> dead p (set_pc t x s1)).
      { intros s1 F1 F2 F3 F4 F5 F6 x NX IC. constructor; proj; rewrite ?F1, ?F2, ?F3, ?F4, ?F5 in *; try assumption.
        - intros c Hc Hp G. apply (Dr c); [lia|assumption|]. apply F6; assumption.
        - intros t' c o G. fup t' t; [exfalso; apply NX; eauto|exfalso; apply (not_in_get _ _ _ _ (NI t') G)].
        - intros t'. specialize (Dc t'). fup t' t; [|assumption]. rewrite E in Dc. rewrite <- Dc.
          destruct x; try reflexivity. exfalso. apply NX. eexists _, _, _. right. reflexivity. }
      destruct (cache s p0) as [c|] eqn:Ec; injection S as <-.
      * destruct (stop_fields t c (set_holder (Some t) s)) as (F1 & F2 & F3 & F4 & F5 & F6 & F7).
        apply CR; rewrite ?F1, ?F2, ?F3, ?F4, ?F5, ?F6, ?F7; try reflexivity; [| |assumption].
        -- intros d Hd G. unfold stop in G; proj. destruct (cstate s c); proj; try assumption; destruct (t =? 0); proj; fup d c; try discriminate; assumption.
        -- intros (q & d & o & [G|G]); discriminate.
      * apply CR; try reflexivity; [auto| |assumption]. intros (q & d & o & [G|G]); discriminate.
  - destruct (pcs s t) eqn:E; try discriminate.
    + assert (p0 <> p). { intros ->. rewrite (Dn t c old (or_introl E)) in S. discriminate. }
      destruct (cstate s c) eqn:Es; try discriminate; injection S as <-; constructor; proj; try assumption.
      all: try (intros t' d o G; fup t' t; [|eauto]; destruct G as [G|G]; inversion G; congruence).
      all: intros t'; specialize (Dc t'); fup t' t; [|assumption]; rewrite E in Dc; rewrite (proj2 (Nat.eqb_neq p0 p)) by assumption; assumption.
    + destruct (cstate s c) eqn:Es; try discriminate. injection S as <-. constructor; proj; try assumption.
      * intros t' d o G. fup t' t; [destruct G; discriminate|eauto].
      * intros t'; specialize (Dc t'); fup t' t; [|assumption]; rewrite E in Dc; assumption.
  - destruct (pcs s t) eqn:E; try discriminate.
    + destruct (cstate s c) eqn:Es; try discriminate; injection S as <-. constructor; proj; try assumption.
      * intros t' d o G. fup t' t; [|eauto]. destruct G as [G|G]; [discriminate|]. injection G as -> -> ->. apply (Dn t d o). left; assumption.
      * intros t'. cbn [count returned timed_out]. specialize (Dc t').
        fup t' t.
        -- rewrite E in Dc. rewrite Nat.eqb_refl. cbn [andb]. destruct (p0 =? p); lia.
        -- rewrite (proj2 (Nat.eqb_neq t t')) by congruence. cbn [andb]. assumption.
      * intros t' b [G|G]; [discriminate|eauto].
    + destruct (v_remw _ I _ _ _ E) as (_ & _ & Es). rewrite Es in S. discriminate.
  - destruct (pcs s t) eqn:E; try discriminate.
    destruct (match old with Some o => match cstate s o with CStopped => true | _ => false end | None => true end); [|discriminate]. injection S as <-.
    constructor; proj; try assumption.
    + intros t' d o G. fup t' t; [destruct G; discriminate|eauto].
    + intros t'. cbn [count returned timed_out]. specialize (Dc t'). fup t' t.
      * rewrite E in Dc. rewrite Nat.eqb_refl. cbn [andb]. destruct (p0 =? p); lia.
      * rewrite (proj2 (Nat.eqb_neq t t')) by congruence. cbn [andb]. assumption.
    + intros t' b [G|G]; [|eauto]. injection G as -> -> <-. rewrite (Dn t' c old (or_intror E)). reflexivity.
  - destruct (pcs s 0) eqn:E0; try discriminate. destruct (nth_error (queue s) i) as [[c|c]|] eqn:En; try discriminate.
    + destruct (listening s (peer s c)) eqn:El; injection S as <-; [|constructor; assumption].
      assert (Hc : c < fresh s) by (apply (v_queue _ I (Connect c)); eapply nth_error_In; eassumption).
      constructor; proj; try assumption.
      * intros d Hd Hp. destruct (cstate s c) eqn:Es; auto. fup d c; [congruence|auto].
      * intros t d o G. destruct (v_new _ I _ _ _ _ G) as (_ & A & _). destruct (cstate s c) eqn:Es; try (eapply Dn; eassumption).
        fup d c; [congruence|eapply Dn; eassumption].
    + injection S as <-. constructor; proj; try assumption.
      * intros d Hd Hp. fup d c; [discriminate|auto].
      * intros t d o G. destruct (v_new _ I _ _ _ _ G) as (_ & _ & _ & A & _). fup d c; [|eapply Dn; eassumption].
        exfalso. apply A. apply (v_stopping _ I). eapply nth_error_In; eassumption.
  - destruct (pcs s 0) eqn:E0; try discriminate. destruct (cstate s c) eqn:Es; try discriminate.
    destruct (listening s (peer s c)); [discriminate|]. injection S as <-. constructor; proj; try assumption.
    + intros d Hd Hp. fup d c; [discriminate|auto].
    + intros t d o G. pose proof (Dn _ _ _ G). fup d c; [congruence|assumption].
  - injection S as <-. constructor; proj; try assumption. rewrite fupd_neq; [assumption|]. intros ->. apply OK. reflexivity.
  - injection S as <-. constructor; proj; try assumption. fup p q; [reflexivity|assumption].
Qed.

Lemma dead_init p up : up p = false -> dead p (init up).
Proof.
  intros H. constructor; cbn; try tauto; try (apply inv_init); try assumption; try lia.
  intros t c old [G|G]; discriminate.
Qed.

(** Every message to a process that does not listen is lost, and costs its
    sender one full timeout: nothing is remembered from one send to the next. *)
Theorem C85_dead_process_costs_a_timeout_each p up ls s :
  up p = false -> reach up (stays_down p) ls s ->
  (forall t b, In (Returned t p b) (log s) -> b = false) /\
  (forall t, pcs s t = Idle -> count (timed_out t p) (log s) = count (returned t p) (log s)).
Proof.
  intros U R. assert (D : dead p s).
  { induction R as [|ls s l s' R IH OK S]; [apply dead_init; assumption|]. eapply dead_step; eassumption. }
  split; [intros t b; apply (d_false _ _ D)|]. intros t E. pose proof (d_count _ _ D t) as C. rewrite E in C. lia.
Qed.

(** ** A process that listens *)
Lemma engine_idle up ls s : reach up good ls s -> pcs s 0 = Idle.
Proof.
  induction 1 as [|ls s l s' R IH OK S]; [reflexivity|]. destruct OK as (OK & _).
  destruct l as [t q|q|t|t|t|t|i|c|q|q]; cbn [step engine_free] in *.
  - destruct (pcs s t); try discriminate. injection S as <-. proj. rewrite fupd_neq by congruence. assumption.
  - contradiction.
  - destruct (holder s); [discriminate|]. destruct (pcs s t) eqn:E; try discriminate; assert (t <> 0) by congruence.
    + destruct (cache s p) as [c|]; [destruct (is_ready (cstate s c))|]; injection S as <-; unfold create; proj; rewrite fupd_neq by congruence; try assumption.
      destruct (stop_fields t c (set_holder (Some t) s)) as (_ & _ & _ & F4 & _). rewrite F4. assumption.
    + destruct (cache s p) as [c|]; injection S as <-; proj; rewrite fupd_neq by congruence; try assumption.
      destruct (stop_fields t c (set_holder (Some t) s)) as (_ & _ & _ & F4 & _). rewrite F4. assumption.
  - destruct (pcs s t) eqn:E; try discriminate; assert (t <> 0) by congruence; destruct (cstate s c); try discriminate; injection S as <-; proj; rewrite fupd_neq by congruence; assumption.
  - destruct (pcs s t) eqn:E; try discriminate; assert (t <> 0) by congruence; destruct (cstate s c); try discriminate; injection S as <-; proj; rewrite ?fupd_neq by congruence; assumption.
  - destruct (pcs s t) eqn:E; try discriminate; assert (t <> 0) by congruence.
    destruct (match old with Some o => match cstate s o with CStopped => true | _ => false end | None => true end); [|discriminate].
    injection S as <-; proj; rewrite fupd_neq by congruence; assumption.
  - rewrite IH in S. destruct (nth_error (queue s) i) as [[c|c]|]; try discriminate; [destruct (listening s (peer s c))|]; injection S as <-; assumption.
  - rewrite IH in S. destruct (cstate s c); try discriminate. destruct (listening s (peer s c)); [discriminate|]. injection S as <-; assumption.
  - injection S as <-; assumption.
  - injection S as <-; assumption.
Qed.

Record alive (t p : nat) (l0 : list event) (s : st) : Prop := mkAlive {
  a_inv : inv s;
  a_eng : pcs s 0 = Idle;
  a_up : listening s p = true;
  a_new : forall c old, in_get (pcs s t) p c old -> cstate s c = CStarting \/ cstate s c = CReady;
  a_end : forall c old, pcs s t = GetEnd p c old -> cstate s c = CReady;
  a_log : exists evs, log s = evs ++ l0 /\ forall b, In (Returned t p b) evs -> b = true
}.

Lemma log_note t p e l l0 : (exists evs, l = evs ++ l0 /\ forall b, In (Returned t p b) evs -> b = true) ->
  (forall b, e = Returned t p b -> b = true) ->
  exists evs, e :: l = evs ++ l0 /\ forall b, In (Returned t p b) evs -> b = true.
Proof. intros (evs & -> & H) He. exists (e :: evs). split; [reflexivity|]. intros b [G|G]; auto. Qed.

Lemma alive_step t p l0 s l s' : alive t p l0 s -> stays_up p s l -> step s l = Some s' -> pcs s' 0 = Idle -> alive t p l0 s'.
Proof.
  intros A OK S E0'. pose proof (inv_step _ _ _ (a_inv _ _ _ _ A) S) as I'. destruct A as [I E0 U N1 N2 L].
  destruct OK as ((OKe & OKt) & OKd).
  destruct l as [u q|q|u|u|u|u|i|c|q|q]; cbn [step engine_free timely] in *.
  - destruct (pcs s u) eqn:E; try discriminate. injection S as <-. constructor; proj; try assumption.
    + intros d o G. fup t u; [destruct G; discriminate|eauto].
    + intros d o G. fup t u; [discriminate|eauto].
  - contradiction.
  - destruct (holder s) eqn:Eh; [discriminate|]. pose proof (nobody_inside _ I Eh) as NI.
    assert (u <> 0) by (intros ->; rewrite E0 in S; discriminate).
    destruct (pcs s u) eqn:E; try discriminate; [|exfalso; apply (v_rem _ I) in E; congruence].
    destruct (cache s p0) as [c|] eqn:Ec.
    + destruct (is_ready (cstate s c)) eqn:Er; injection S as <-.
      * constructor; proj; try assumption.
        -- intros d o G. fup t u; [destruct G; discriminate|eauto].
        -- intros d o G. fup t u; [discriminate|eauto].
        -- apply log_note; [assumption|]. intros b G. inversion G. reflexivity.
      * destruct (stop_fields u c (set_holder (Some u) s)) as (F1 & F2 & F3 & F4 & F5 & F6 & F7).
        unfold create in *. constructor; try assumption; proj; rewrite ?F1, ?F2, ?F3, ?F4, ?F5, ?F6, ?F7; try assumption.
        -- intros d o G. fup t u; [|exfalso; apply (not_in_get _ _ _ _ (NI t) G)].
           assert (d = fresh s) as -> by (destruct G as [G|G]; inversion G; rewrite ?F3; auto). proj. rewrite fupd_eq. auto.
        -- intros d o G. fup t u; [discriminate|]. exfalso. apply (NI t). rewrite G. exact Logic.I.
    + injection S as <-. unfold create in *. constructor; proj; try assumption.
      * intros d o G. fup t u; [|exfalso; apply (not_in_get _ _ _ _ (NI t) G)].
        assert (d = fresh s) as -> by (destruct G as [G|G]; inversion G; auto). rewrite fupd_eq. auto.
      * intros d o G. fup t u; [discriminate|]. exfalso. apply (NI t). rewrite G. exact Logic.I.
  - assert (u <> 0) by (intros ->; rewrite E0 in S; discriminate).
    destruct (pcs s u) eqn:E; try discriminate; [|exfalso; apply (v_remw _ I) in E as (? & _); congruence].
    assert (Es : cstate s c <> CStarting) by (intros G; rewrite G in S; discriminate).
    assert (S' : s' = set_pc u (GetEnd p0 c old) s) by (destruct (cstate s c); congruence). subst s'. clear S.
    constructor; proj; try assumption.
    + intros d o G. fup t u; [|eauto]. apply (N1 d o). left. destruct G as [G|G]; [discriminate|]. injection G as -> -> ->. assumption.
    + intros d o G. fup t u; [|eauto]. injection G as -> -> ->. destruct (N1 d o (or_introl E)); congruence.
  - assert (u <> 0) by (intros ->; rewrite E0 in S; discriminate).
    destruct (pcs s u) eqn:E; try discriminate; [|exfalso; apply (v_remw _ I) in E as (? & _); congruence].
    destruct (cstate s c) eqn:Es; try discriminate. injection S as <-.
    assert (p0 <> p) by (intros ->; destruct OKt; congruence).
    constructor; proj; try assumption.
    + intros d o G. fup t u; [|eauto]. destruct G as [G|G]; inversion G; congruence.
    + intros d o G. fup t u; [|eauto]. inversion G; congruence.
    + apply log_note; [assumption|discriminate].
  - destruct (pcs s u) eqn:E; try discriminate.
    destruct (match old with Some o => match cstate s o with CStopped => true | _ => false end | None => true end); [|discriminate]. injection S as <-.
    constructor; proj; try assumption.
    + intros d o G. fup t u; [destruct G; discriminate|eauto].
    + intros d o G. fup t u; [discriminate|eauto].
    + apply log_note; [assumption|]. intros b G. injection G as -> -> <-. rewrite (N2 _ _ E). reflexivity.
  - rewrite E0 in S. destruct (nth_error (queue s) i) as [[c|c]|] eqn:En; try discriminate.
    + destruct (listening s (peer s c)) eqn:El; injection S as <-; [|constructor; assumption].
      constructor; proj; try assumption.
      * intros d o G. destruct (cstate s c) eqn:Es; try (eapply N1; eassumption). fup d c; [auto|eapply N1; eassumption].
      * intros d o G. destruct (cstate s c) eqn:Es; try (eapply N2; eassumption). fup d c; [auto|eapply N2; eassumption].
    + injection S as <-.
      assert (Es : cstate s c = CStopping) by (apply (v_stopping _ I); eapply nth_error_In; eassumption).
      constructor; proj; try assumption.
      * intros d o G. fup d c; [destruct (N1 _ _ G); congruence|eapply N1; eassumption].
      * intros d o G. fup d c; [specialize (N2 _ _ G); congruence|eapply N2; eassumption].
  - rewrite E0 in S. destruct (cstate s c) eqn:Es; try discriminate.
    destruct (listening s (peer s c)) eqn:El; [discriminate|]. injection S as <-.
    constructor; proj; try assumption.
    + intros d o G. destruct (v_new _ I _ _ _ _ G) as (_ & X & _). fup d c; [congruence|eapply N1; eassumption].
    + intros d o G. destruct (v_new _ I _ _ _ _ (or_intror G)) as (_ & X & _). fup d c; [congruence|eapply N2; eassumption].
  - injection S as <-. constructor; proj; try assumption. fup p q; [reflexivity|assumption].
  - injection S as <-. constructor; proj; try assumption. rewrite fupd_neq; [assumption|]. intros ->. apply OKd. reflexivity.
Qed.

Lemma alive_exec t p l0 up s ls' s' : alive t p l0 s -> (exists ls, reach up good ls s) -> exec (stays_up p) s ls' s' -> alive t p l0 s'.
Proof.
  intros A R H. induction H as [s|s l s1 ls s2 OK S H IH]; [assumption|]. destruct R as (ls0 & R).
  assert (R1 : reach up good (ls0 ++ [l]) s1) by (econstructor; [eassumption|apply OK|assumption]).
  apply IH; [|eexists; eassumption]. eapply alive_step; try eassumption. eapply engine_idle; eassumption.
Qed.

(** While a process listens, whatever happened before, every message sent to
    it is handed to a connection.  Missing: the engine thread does not send
    or drop connections (see [C85_send_from_handler_lost] and
    [C85_deadlock_refuted]). *)
Theorem C85_listening_process_reached_partial up ls s t p ls' s' :
  reach up good ls s -> pcs s t = Idle -> listening s p = true -> exec (stays_up p) s ls' s' ->
  exists evs, log s' = evs ++ log s /\ forall b, In (Returned t p b) evs -> b = true.
Proof.
  intros R E U X. refine (a_log _ _ _ _ (alive_exec t p (log s) up s ls' s' _ (ex_intro _ _ R) X)).
  constructor; try assumption.
  - eapply reach_inv; eassumption.
  - eapply engine_idle; eassumption.
  - intros c o [G|G]; congruence.
  - congruence.
  - exists []. split; [reflexivity|contradiction].
Qed.

(** ** Every call returns *)
(** steps that finish what has been started *)
Definition finishing (l : label) : Prop := match l with Lock _ | Poll _ | Timeout _ | Return _ | Engine _ => True | _ => False end.

Record quiet (s : st) : Prop := mkQuiet { q_inv : inv s; q_eng : pcs s 0 = Idle }.

Lemma good_finishing s l : finishing l -> timely s l -> good s l.
Proof. intros F T. split; [destruct l; cbn in *; tauto|assumption]. Qed.

Lemma index_of {A} (x : A) l : In x l -> exists i, nth_error l i = Some x.
Proof. apply In_nth_error. Qed.

(** what [finish] guarantees *)
Definition progress (n : nat) (s : st) (P : st -> Prop) : Prop :=
  exists ls s', exec good s ls s' /\ length ls <= n /\ Forall finishing ls /\ quiet s' /\ P s'.

(** the thread has returned; nobody else has moved *)
Definition done (t : nat) (s s' : st) : Prop :=
  holder s' = None /\ pcs s' t = Idle /\ forall t', t' <> t -> pcs s' t' = pcs s t'.
Definition timeouts (evs : list event) : Prop := forall t p b, ~ In (Returned t p b) evs.
Definition sent_once (t p : nat) (s s' : st) : Prop := exists b evs, log s' = Returned t p b :: evs ++ log s /\ timeouts evs.

(** step 4: a thread whose evicted connection is gone returns *)
Lemma finish1 s t p c old :
  quiet s -> pcs s t = GetEnd p c old -> match old with Some o => cstate s o = CStopped | None => True end ->
  progress 1 s (fun s' => done t s s' /\ sent_once t p s s').
Proof.
  intros [I E0] E Ho.
  destruct (step s (Return t)) as [s'|] eqn:S.
  - pose proof (inv_step _ _ _ I S) as I'. exists [Return t], s'.
    split; [econstructor; [apply good_finishing; exact Logic.I|exact S|constructor]|]. split; [cbn; lia|]. split; [repeat constructor|].
    cbn [step] in S. rewrite E in S.
    destruct (match old with Some o => match cstate s o with CStopped => true | _ => false end | None => true end); [|discriminate]. injection S as <-.
    split; [split; [assumption|]; proj; rewrite fupd_neq; [assumption|congruence]|]. split.
    + split; [reflexivity|]. split; [proj; apply fupd_eq|]. intros t' H. proj. apply fupd_neq. assumption.
    + eexists _, []. split; [reflexivity|]. intros ? ? ? [].
  - exfalso. cbn [step] in S. rewrite E in S. destruct old as [o|]; [rewrite Ho in S|]; discriminate.
Qed.

Lemma progress_le n m s P : progress n s P -> n <= m -> progress m s P.
Proof. intros (ls & s' & A & B & C) H. exists ls, s'. split; [assumption|]. split; [lia|assumption]. Qed.

Lemma progress_step n s l s1 (P : st -> Prop) : finishing l -> timely s l -> step s l = Some s1 -> progress n s1 P -> progress (S n) s P.
Proof.
  intros F T S (ls & s' & A & B & C & D). exists (l :: ls), s'. split; [econstructor; [apply good_finishing; assumption|exact S|exact A]|].
  split; [cbn; lia|]. split; [constructor; assumption|assumption].
Qed.

Lemma progress_imp n s (P Q : st -> Prop) : progress n s P -> (forall s', P s' -> Q s') -> progress n s Q.
Proof. intros (ls & s' & A & B & C & D & X) H. exists ls, s'. do 4 (split; [assumption|]). auto. Qed.

(** step 3: the engine disconnects the evicted connection *)
Lemma finish2 s t p c old :
  quiet s -> pcs s t = GetEnd p c old -> progress 2 s (fun s' => done t s s' /\ sent_once t p s s').
Proof.
  intros Q E. pose proof Q as [I E0]. destruct old as [o|].
  2: { apply (progress_le 1); [|lia]. eapply finish1; try eassumption. exact Logic.I. }
  destruct (v_old _ I t p c o (or_intror E)) as (_ & _ & _ & [Es|Es] & _).
  2: { apply (progress_le 1); [|lia]. eapply finish1; eassumption. }
  destruct (index_of _ _ (proj1 (v_stopping _ I o) Es)) as (i & Hi).
  set (s1 := mkSt (holder s) (cache s) (fupd (cstate s) o CStopped) (peer s) (fresh s) (drop_cmds o (queue s)) (pcs s) (listening s) (aborted s) (log s)).
  assert (S : step s (Engine i) = Some s1) by (cbn [step]; rewrite E0, Hi; reflexivity).
  apply (progress_step 1 s (Engine i) s1); [exact Logic.I|exact Logic.I|assumption|].
  apply (finish1 s1 t p c (Some o)); [split; [eapply inv_step; eassumption|assumption]|assumption|]. apply fupd_eq.
Qed.

Lemma finish3 s t p c old :
  quiet s -> pcs s t = GetWait p c old -> cstate s c <> CStarting -> progress 3 s (fun s' => done t s s' /\ sent_once t p s s').
Proof.
  intros [I E0] E Hs.
  assert (S : step s (Poll t) = Some (set_pc t (GetEnd p c old) s)).
  { cbn [step]. rewrite E. destruct (cstate s c); try reflexivity. congruence. }
  apply (progress_step 2 s (Poll t) _ _ Logic.I Logic.I S).
  eapply progress_imp; [eapply (finish2 _ t p c old)|].
  - split; [eapply inv_step; eassumption|]. proj. rewrite fupd_neq by congruence. assumption.
  - proj. apply fupd_eq.
  - intros s' ((A1 & A2 & A3) & B). split; [|exact B]. split; [assumption|]. split; [assumption|].
    intros t' H. rewrite A3 by assumption. proj. apply fupd_neq. assumption.
Qed.

(** steps 1 and 2: the connection is made, or the timeout ends the wait *)
Lemma finish4 s t p c old :
  quiet s -> in_get (pcs s t) p c old -> progress 4 s (fun s' => done t s s' /\ sent_once t p s s').
Proof.
  intros Q [E|E]; [|apply (progress_le 2); [eapply finish2; eassumption|lia]].
  pose proof Q as [I E0]. destruct (cstate s c) eqn:Es; try (apply (progress_le 3); [eapply finish3; try eassumption; congruence|lia]).
  destruct (v_new _ I t p c old (or_introl E)) as (_ & Ep & _).
  destruct (listening s p) eqn:El.
  - destruct (index_of _ _ (v_starting _ I c Es)) as (i & Hi).
    set (s1 := mkSt (holder s) (cache s) (fupd (cstate s) c CReady) (peer s) (fresh s) (remove_nth i (queue s)) (pcs s) (listening s) (aborted s) (log s)).
    assert (S : step s (Engine i) = Some s1) by (cbn [step]; rewrite E0, Hi, Ep, El, Es; reflexivity).
    apply (progress_step 3 s (Engine i) s1); [exact Logic.I|exact Logic.I|assumption|].
    apply (finish3 s1 t p c old); [split; [eapply inv_step; eassumption|assumption]|assumption|]. unfold s1; proj. rewrite fupd_eq. discriminate.
  - assert (S : step s (Timeout t) = Some (note (TimedOut t p) (set_pc t (GetEnd p c old) s))) by (cbn [step]; rewrite E, Es; reflexivity).
    apply (progress_le 3); [|lia]. eapply (progress_step 2 s (Timeout t) _ _ Logic.I); [cbn [timely]; rewrite E; left; assumption|exact S|].
    eapply progress_imp; [eapply (finish2 _ t p c old)|].
    + split; [eapply inv_step; eassumption|]. proj. rewrite fupd_neq by congruence. assumption.
    + proj. apply fupd_eq.
    + intros s' ((A1 & A2 & A3) & (b & evs & B & B')). split.
      * split; [assumption|]. split; [assumption|]. intros t' H. rewrite A3 by assumption. proj. apply fupd_neq. assumption.
      * exists b, (evs ++ [TimedOut t p]). split; [rewrite B; proj; rewrite <- app_assoc; reflexivity|].
        intros t' p' b' G. apply in_app_or in G as [G|[G|[]]]; [eapply B'; eassumption|discriminate].
Qed.

(** with the mutex free a waiting thread enters and finishes *)
Lemma finish5 s t p :
  quiet s -> holder s = None -> pcs s t = GetLock p -> progress 5 s (fun s' => done t s s' /\ sent_once t p s s').
Proof.
  intros [I E0] Eh E. destruct (step s (Lock t)) as [s1|] eqn:S.
  2: { exfalso. cbn [step] in S. rewrite Eh, E in S. destruct (cache s p) as [c|]; [destruct (is_ready (cstate s c))|]; discriminate. }
  pose proof (inv_step _ _ _ I S) as I1.
  apply (progress_step 4 s (Lock t) _ _ Logic.I Logic.I S). cbn [step] in S. rewrite Eh, E in S.
  assert (CR : forall old s0, pcs s0 = pcs s -> log s0 = log s -> s1 = create t p old s0 -> progress 4 s1 (fun s' => done t s s' /\ sent_once t p s s')).
  { intros old s0 F1 F2 ->. eapply progress_imp; [eapply (finish4 _ t p (fresh s0) old)|].
    - split; [assumption|]. unfold create; proj. rewrite F1, fupd_neq by congruence. assumption.
    - left. unfold create; proj. apply fupd_eq.
    - intros s' ((A1 & A2 & A3) & (b & evs & B & B')). split.
      + split; [assumption|]. split; [assumption|]. intros t' H. rewrite A3 by assumption. unfold create; proj. rewrite fupd_neq, F1 by assumption. reflexivity.
      + exists b, evs. split; [rewrite B; unfold create; proj; rewrite F2; reflexivity|assumption]. }
  destruct (cache s p) as [c|].
  - destruct (is_ready (cstate s c)); injection S as <-.
    + exists [], (note (Returned t p true) (set_pc t Idle s)). split; [constructor|]. split; [cbn; lia|]. split; [constructor|].
      split; [split; [assumption|proj; rewrite fupd_neq by congruence; assumption]|]. split.
      * split; [assumption|]. split; [proj; apply fupd_eq|]. intros t' H. proj. apply fupd_neq. assumption.
      * eexists _, []. split; [reflexivity|]. intros ? ? ? [].
    + destruct (stop_fields t c (set_holder (Some t) s)) as (F1 & F2 & F3 & F4 & F5 & F6 & F7).
      eapply CR; [| |reflexivity]; proj; assumption.
  - injection S as <-. eapply CR; [| |reflexivity]; reflexivity.
Qed.

Lemma progress_trans n m s (P Q : st -> Prop) : progress n s P -> (forall s', quiet s' -> P s' -> progress m s' Q) -> progress (n + m) s Q.
Proof.
  intros (ls & s1 & A1 & B1 & C1 & D1 & P1) H. destruct (H s1 D1 P1) as (ls' & s2 & A2 & B2 & C2 & D2 & P2).
  exists (ls ++ ls'), s2. split; [eapply exec_app; eassumption|]. split; [rewrite app_length; lia|]. split; [apply Forall_app; split; assumption|]. split; assumption.
Qed.

Lemma timeouts_count t p evs : timeouts evs -> count (returned t p) evs = 0.
Proof.
  induction evs as [|e r IH]; intros H; [reflexivity|]. cbn [count]. rewrite IH by (intros a b c G; apply (H a b c); right; assumption).
  destruct e as [t' p'|t' p' b]; [reflexivity|]. exfalso. apply (H t' p' b). left. reflexivity.
Qed.
Lemma count_app f a b : count f (a ++ b) = count f a + count f b.
Proof. induction a as [|x r IH]; [reflexivity|]. cbn [count app]. rewrite IH. lia. Qed.

(** the process a thread is sending to *)
Definition sending (x : pc) : option nat := match x with GetLock p | GetWait p _ _ | GetEnd p _ _ => Some p | _ => None end.

(** Whatever has happened, every send that has begun can return after at
    most nine steps, none of which starts a new call or needs anything from
    the other process; it returns exactly once.  Missing: see
    [C85_deadlock_refuted]. *)
Theorem C85_send_returns_partial up ls s t p :
  reach up good ls s -> sending (pcs s t) = Some p ->
  exists ls' s', exec good s ls' s' /\ length ls' <= 9 /\ Forall finishing ls' /\ pcs s' t = Idle /\
    count (returned t p) (log s') = S (count (returned t p) (log s)).
Proof.
  intros R E. assert (Q : quiet s) by (split; [eapply reach_inv; eassumption|eapply engine_idle; eassumption]).
  assert (SO : forall s0 s1, sent_once t p s0 s1 -> count (returned t p) (log s1) = S (count (returned t p) (log s0))).
  { intros s0 s1 (b & evs & -> & B). cbn [count returned]. rewrite !Nat.eqb_refl, count_app, timeouts_count by assumption. reflexivity. }
  assert (X : progress 9 s (fun s' => pcs s' t = Idle /\ count (returned t p) (log s') = S (count (returned t p) (log s)))).
  { destruct (pcs s t) as [|q|q c old|q c old|q|q c] eqn:Ep; cbn [sending] in E; try discriminate; injection E as ->.
    - destruct (holder s) as [u|] eqn:Eh.
      + pose proof (proj2 (v_hold _ (q_inv _ Q) u) Eh) as Hu.
        assert (NE : t <> u) by (intros ->; rewrite Ep in Hu; exact Hu).
        assert (G : exists q c old, in_get (pcs s u) q c old).
        { destruct (pcs s u) eqn:Eu; cbn in Hu; try contradiction; [eexists _, _, _; left; reflexivity|eexists _, _, _; right; reflexivity|].
          destruct (v_remw _ (q_inv _ Q) _ _ _ Eu) as (-> & _). rewrite (q_eng _ Q) in Eu. discriminate. }
        destruct G as (q & c & old & G). apply (progress_trans 4 5 s (fun s' => done u s s' /\ sent_once u q s s')); [eapply finish4; eassumption|].
        intros s1 Q1 ((A1 & A2 & A3) & (b & evs & B & B')).
        eapply progress_imp; [apply (finish5 s1 t p Q1 A1); rewrite A3 by assumption; assumption|].
        intros s2 ((C1 & C2 & C3) & D). split; [assumption|]. rewrite (SO _ _ D), B. cbn [count returned].
        rewrite (proj2 (Nat.eqb_neq u t)) by congruence. cbn [andb]. rewrite count_app, timeouts_count by assumption. reflexivity.
      + apply (progress_le 5); [|lia]. eapply progress_imp; [apply (finish5 s t p Q Eh Ep)|]. intros s2 ((C1 & C2 & C3) & D). split; [assumption|]. apply SO; assumption.
    - apply (progress_le 4); [|lia]. eapply progress_imp; [apply (finish4 s t p c old Q); left; assumption|]. intros s2 ((C1 & C2 & C3) & D). split; [assumption|]. apply SO; assumption.
    - apply (progress_le 4); [|lia]. eapply progress_imp; [apply (finish4 s t p c old Q); right; assumption|]. intros s2 ((C1 & C2 & C3) & D). split; [assumption|]. apply SO; assumption. }
  destruct X as (ls' & s' & A & B & C & _ & D1 & D2). exists ls', s'. auto 6.
Qed.

(** ** Refutations *)
(** A boolean version of the environment condition, to check concrete runs *)
Definition timelyb (s : st) (l : label) : bool :=
  match l with
  | Timeout t => match pcs s t with GetWait p _ _ => negb (listening s p) || negb (match pcs s 0 with Idle => true | _ => false end) | _ => true end
  | _ => true
  end.
Lemma timelyb_sound s l : timelyb s l = true -> timely s l.
Proof.
  destruct l; cbn; try (intros; exact Logic.I). destruct (pcs s t); try (intros; exact Logic.I).
  destruct (listening s p); cbn; [|tauto]. destruct (pcs s 0); cbn; try discriminate; right; discriminate.
Qed.
Fixpoint check (s : st) (ls : list label) : option st :=
  match ls with
  | [] => Some s
  | l :: r => if timelyb s l then match step s l with Some s' => check s' r | None => None end else None
  end.
Lemma check_reach up ls0 s0 ls s : reach up timely ls0 s0 -> check s0 ls = Some s -> reach up timely (ls0 ++ ls) s.
Proof.
  revert ls0 s0. induction ls as [|l r IH]; intros ls0 s0 R C; cbn [check] in C.
  - injection C as <-. rewrite app_nil_r. assumption.
  - destruct (timelyb s0 l) eqn:T; [|discriminate]. destruct (step s0 l) as [s1|] eqn:S; [|discriminate].
    change (l :: r) with ([l] ++ r). rewrite app_assoc. eapply IH; [|eassumption]. econstructor; [eassumption|apply timelyb_sound; assumption|assumption].
Qed.
Lemma ex_check up ls (P : st -> Prop) : match check (init up) ls with Some s => P s | None => False end -> exists s, reach up timely ls s /\ P s.
Proof.
  destruct (check (init up) ls) as [s|] eqn:C; [|contradiction]. intros H. exists s. split; [|assumption].
  change ls with ([] ++ ls). eapply check_reach; [constructor|assumption].
Qed.

(** Process 5 has died; thread 1 sends to it twice.  During the second send
    the message arrives that process 5 is outdated.  The engine waits for the
    cache's mutex, which the sender holds while it waits for the engine to
    disconnect the first connection. *)
Definition deadlock_run : list label := [Call 1 5; Lock 1; Timeout 1; Return 1; Call 1 5; Lock 1; Remove 5; Timeout 1].

Record stuck (s0 s : st) : Prop := mkStuck {
  k_log : log s = log s0;
  k_eng : pcs s 0 = RemLock 5;
  k_hold : holder s = Some 1;
  k_thread : pcs s 1 = GetEnd 5 1 (Some 0);
  k_old : cstate s 0 = CStopping;
  k_inv : inv s
}.

Lemma stuck_step s0 s l s' : stuck s0 s -> step s l = Some s' -> stuck s0 s'.
Proof.
  intros K S. pose proof (inv_step _ _ _ (k_inv _ _ K) S) as I'. destruct K as [L E H T O I].
  assert (ONLY : forall t, holds (pcs s t) -> t = 1) by (intros t G; apply (v_hold _ I) in G; congruence).
  destruct l as [t q|q|t|t|t|t|i|c|q|q]; cbn [step] in S.
  - destruct (pcs s t) eqn:Et; try discriminate. injection S as <-. constructor; proj; try assumption; rewrite fupd_neq; try assumption; congruence.
  - rewrite E in S. discriminate.
  - rewrite H in S. discriminate.
  - destruct (pcs s t) eqn:Et; try discriminate.
    + assert (t = 1) as -> by (apply ONLY; rewrite Et; exact Logic.I). congruence.
    + assert (t = 1) as -> by (apply ONLY; rewrite Et; exact Logic.I). congruence.
  - destruct (pcs s t) eqn:Et; try discriminate.
    + assert (t = 1) as -> by (apply ONLY; rewrite Et; exact Logic.I). congruence.
    + assert (t = 1) as -> by (apply ONLY; rewrite Et; exact Logic.I). congruence.
  - destruct (pcs s t) eqn:Et; try discriminate. assert (t = 1) as -> by (apply ONLY; rewrite Et; exact Logic.I).
    rewrite T in Et. injection Et as <- <- <-. rewrite O in S. discriminate.
  - rewrite E in S. discriminate.
  - rewrite E in S. discriminate.
  - injection S as <-. constructor; proj; assumption.
  - injection S as <-. constructor; proj; assumption.
Qed.

Lemma stuck_exec s0 s ls s' : stuck s0 s -> exec any s ls s' -> stuck s0 s'.
Proof. intros K X. induction X; [assumption|]. apply IHX. eapply stuck_step; eassumption. Qed.

(** Refuted: "every send returns".  After [deadlock_run] no thread of the
    process ever finishes another send, and the engine never leaves its
    handler, whatever happens next. *)
Theorem C85_deadlock_refuted :
  exists s, reach (fun _ => false) timely deadlock_run s /\ sending (pcs s 1) = Some 5 /\
    forall ls s', exec any s ls s' -> log s' = log s /\ pcs s' 1 = pcs s 1 /\ pcs s' 0 = RemLock 5 /\ (forall i, step s' (Engine i) = None).
Proof.
  assert (X : exists s, reach (fun _ => false) timely deadlock_run s /\
     (pcs s 0 = RemLock 5 /\ holder s = Some 1 /\ pcs s 1 = GetEnd 5 1 (Some 0) /\ cstate s 0 = CStopping)).
  { apply ex_check. vm_compute. auto. }
  destruct X as (s & R & A1 & A2 & A3 & A4). exists s. split; [assumption|]. split; [rewrite A3; reflexivity|].
  intros ls s' X. assert (K : stuck s s').
  { eapply stuck_exec; [|eassumption]. constructor; try assumption; [reflexivity|]. eapply reach_inv; eassumption. }
  destruct K. split; [assumption|]. split; [congruence|]. split; [assumption|]. intros i. cbn [step]. rewrite k_eng0. reflexivity.
Qed.

(** Refuted: "a message sent to a process that listens reaches it".  A
    receive handler's first message to a process is lost although the process
    listens throughout. *)
Theorem C85_send_from_handler_refuted :
  exists s, reach (fun _ => true) timely [Call 0 5; Lock 0; Timeout 0; Return 0] s /\
    log s = [Returned 0 5 false; TimedOut 0 5] /\ listening s 5 = true /\ pcs s 0 = Idle.
Proof. apply ex_check. vm_compute. auto. Qed.

(** ** The hypotheses are met *)
Definition goodb (s : st) (l : label) : bool :=
  timelyb s l && match l with Call t _ => negb (t =? 0) | Remove _ => false | _ => true end.
Lemma goodb_sound s l : goodb s l = true -> good s l.
Proof.
  unfold goodb. rewrite andb_true_iff. intros (A & B). split; [|apply timelyb_sound; assumption].
  destruct l; cbn in *; try exact Logic.I; [|discriminate]. apply negb_true_iff, Nat.eqb_neq in B. assumption.
Qed.
Fixpoint checkb (f : st -> label -> bool) (s : st) (ls : list label) : option st :=
  match ls with
  | [] => Some s
  | l :: r => if f s l then match step s l with Some s' => checkb f s' r | None => None end else None
  end.
Lemma checkb_exec f (ok : st -> label -> Prop) s ls s' : (forall s l, f s l = true -> ok s l) -> checkb f s ls = Some s' -> exec ok s ls s'.
Proof.
  intros F. revert s. induction ls as [|l r IH]; intros s C; cbn [checkb] in C; [injection C as <-; constructor|].
  destruct (f s l) eqn:T; [|discriminate]. destruct (step s l) as [s1|] eqn:S; [|discriminate]. econstructor; eauto.
Qed.
Lemma exec_reach up ok ls0 s ls s' : reach up ok ls0 s -> exec ok s ls s' -> reach up ok (ls0 ++ ls) s'.
Proof.
  intros R X. revert ls0 R. induction X as [s|s l s1 ls s2 OK S X IH]; intros ls0 R; [rewrite app_nil_r; assumption|].
  change (l :: ls) with ([l] ++ ls). rewrite app_assoc. apply IH. econstructor; eassumption.
Qed.
Lemma ex_good up ls (P : st -> Prop) : match checkb goodb (init up) ls with Some s => P s | None => False end -> exists s, reach up good ls s /\ P s.
Proof.
  destruct (checkb goodb (init up) ls) as [s|] eqn:C; [|contradiction]. intros H. exists s. split; [|assumption].
  change ls with ([] ++ ls). eapply exec_reach; [constructor|]. eapply checkb_exec; [apply goodb_sound|assumption].
Qed.

(** Two threads; the first send to process 5 fails, then it comes up; the
    connection made before is replaced and two sends arrive. *)
Example C85_listening_met : exists s,
  reach (fun _ => false) good [Call 1 5; Lock 1; Timeout 1; Return 1; PeerUp 5] s /\ pcs s 1 = Idle /\ listening s 5 = true /\
  exists s', exec (stays_up 5) s [Call 1 5; Call 2 5; Lock 1; Engine 2; Poll 1; Engine 1; Return 1; Lock 2] s' /\
    log s' = [Returned 2 5 true; Returned 1 5 true; Returned 1 5 false; TimedOut 1 5].
Proof.
  apply ex_good. set (f := fun s l => goodb s l && match l with PeerDown _ => false | _ => true end).
  assert (F : forall s l, f s l = true -> stays_up 5 s l).
  { intros s l. unfold f. rewrite andb_true_iff. intros (A & B). split; [apply goodb_sound; assumption|]. intros ->. discriminate. }
  destruct (checkb goodb (init (fun _ => false)) [Call 1 5; Lock 1; Timeout 1; Return 1; PeerUp 5]) as [s|] eqn:C; [|vm_compute in C; discriminate].
  assert (Hs : pcs s 1 = Idle /\ listening s 5 = true /\ match checkb f s [Call 1 5; Call 2 5; Lock 1; Engine 2; Poll 1; Engine 1; Return 1; Lock 2] with
     Some s' => log s' = [Returned 2 5 true; Returned 1 5 true; Returned 1 5 false; TimedOut 1 5] | None => False end).
  { vm_compute in C. injection C as <-. vm_compute. auto. }
  destruct Hs as (H1 & H2 & H3). do 2 (split; [assumption|]).
  destruct (checkb f s _) as [s'|] eqn:C'; [|contradiction]. exists s'. split; [eapply checkb_exec; eassumption|assumption].
Qed.

Example C85_returns_met : exists s, reach (fun _ => false) good [Call 1 5; Lock 1; Call 2 5; Timeout 1; Return 1; Call 1 5; Lock 1] s /\
  sending (pcs s 1) = Some 5 /\ sending (pcs s 2) = Some 5 /\ cstate s 0 = CStopping.
Proof. apply ex_good. vm_compute. auto. Qed.

Example C85_dead_met : exists s, reach (fun _ => false) (stays_down 5) [Call 1 5; Lock 1; Timeout 1; Return 1; Call 1 5; Lock 1; Engine 1; Timeout 1; Return 1] s /\
  count (returned 1 5) (log s) = 2 /\ pcs s 1 = Idle.
Proof.
  set (f := fun (s : st) (l : label) => match l with PeerUp _ => false | _ => true end).
  destruct (checkb f (init (fun _ => false)) [Call 1 5; Lock 1; Timeout 1; Return 1; Call 1 5; Lock 1; Engine 1; Timeout 1; Return 1]) as [s|] eqn:C; [|vm_compute in C; discriminate].
  exists s. split.
  - rewrite <- (app_nil_l [Call 1 5; _; _; _; _; _; _; _; _]). eapply exec_reach; [constructor|]. eapply checkb_exec; [|eassumption].
    intros s0 l H ->. discriminate.
  - vm_compute in C. injection C as <-. vm_compute. auto.
Qed.

Print Assumptions C85_never_terminates.
Print Assumptions C85_send_from_handler_lost.
Print Assumptions C85_send_from_handler_waits.
Print Assumptions C85_dead_process_costs_a_timeout_each.
Print Assumptions C85_listening_process_reached_partial.
Print Assumptions C85_send_returns_partial.
Print Assumptions C85_deadlock_refuted.
Print Assumptions C85_send_from_handler_refuted.
