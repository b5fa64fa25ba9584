(** C43, C64, C65: the gateway application. *)
From Verif Require Import Base GwAppModel.
Local Open Scope N_scope.

(** * Specification vocabulary *)

(** Whether the last time service i appeared it was propagated to the other gateway: ProvideService succeeded and, if
    a proxy had to be created, that succeeded too.  Histories are in the order of time. *)
Definition is_appearance (i : N) (o : op) : bool := match o with Appeared j _ _ => j =? i | _ => false end.
Inductive propagated (i : N) : list op -> Prop :=
| prop_new h c : propagated i (h ++ [Appeared i (Some c) true])
| prop_again h c : propagated i h -> propagated i (h ++ [Appeared i c true])
| prop_other h o : propagated i h -> is_appearance i o = false -> propagated i (h ++ [o]).

(** Service i disappears only after having been propagated. *)
Definition disappearances_ok (l : list op) : Prop := forall h i stop r, l = h ++ Disappeared i stop :: r -> propagated i h.
(** The other gateway speaks of events only. *)
Definition events_only (l : list op) : Prop := forall o, In o l ->
  match o with RUnregister _ ty _ | RUpdate _ ty _ _ => ty = 1 | _ => True end.

(** * C43 *)
Lemma upd_eq {A} (f : N -> A) k v : upd f k v k = v.
Proof. unfold upd. rewrite N.eqb_refl. reflexivity. Qed.
Lemma upd_ne {A} (f : N -> A) k v x : x <> k -> upd f k v x = f x.
Proof. intros H. unfold upd. destruct (N.eqb_spec x k); congruence. Qed.

Lemma runs_snoc l o : runs (l ++ [o]) = exec (runs l) o.
Proof. unfold runs. rewrite fold_left_app. reflexivity. Qed.

Lemma ask_same s i e r b : proxies (ask s i e r b) = proxies s /\ dead (ask s i e r b) = dead s.
Proof. destruct b; split; reflexivity. Qed.
Lemma re_register_same s i f : proxies (re_register s i f) = proxies s /\ dead (re_register s i f) = dead s.
Proof.
  unfold re_register. generalize (subs s i) as l. intros l. revert s. induction l as [|e l IH]; intros s; [split; reflexivity|]. cbn [fold_left].
  destruct (IH (ask s i e true (f e))) as [A B]. destruct (ask_same s i e true (f e)) as [C D]. split; congruence.
Qed.

(** a proxy exists only if the service was propagated *)
Lemma proxy_propagated l i : dead (runs l) = false -> proxies (runs l) i <> None -> propagated i l.
Proof.
  induction l as [|o l IH] using rev_ind; intros D P; [destruct P; reflexivity|]. rewrite runs_snoc in *. unfold exec in *.
  destruct (dead (runs l)) eqn:DL; [congruence|]. specialize (IH eq_refl).
  destruct o as [j c p|j b|j e h b|j a ev c f b|j|j f|j ty e a b|j ty e|j ty e n].
  - destruct (N.eq_dec j i) as [->|NE].
    + unfold propagate in *. destruct (proxies (runs l) i) eqn:PI.
      * destruct p; [apply prop_again; apply IH; congruence|]. cbn in P. rewrite upd_eq in P. congruence.
      * destruct c as [ev|]; [|congruence]. cbn in *. rewrite upd_eq in *. destruct p; [apply prop_new|]. cbn in P. rewrite upd_eq in P. congruence.
    + apply prop_other; [|cbn; apply N.eqb_neq; exact NE]. apply IH. unfold propagate in *. destruct (proxies (runs l) j) eqn:PJ.
      * destruct p; [exact P|]. cbn in P. rewrite upd_ne in P by auto. exact P.
      * destruct c as [ev|]; [|exact P]. cbn in P. rewrite upd_eq in P. destruct p; cbn in P; rewrite ?upd_ne in P by auto; exact P.
  - apply prop_other; [|reflexivity]. apply IH. destruct (proxies (runs l) j); exact P.
  - apply prop_other; [|reflexivity]. apply IH. destruct h; destruct (mem e (subs (runs l) j)); try exact P;
      rewrite (proj1 (ask_same _ _ _ _ _)) in P; exact P.
  - apply prop_other; [|reflexivity]. apply IH. destruct a; [|exact P]. destruct (skeletons (runs l) j); [rewrite (proj1 (re_register_same _ _ _)) in P; exact P|].
    destruct c; [|exact P]. destruct f; exact P.
  - apply prop_other; [|reflexivity]. auto.
  - apply prop_other; [|reflexivity]. auto.
  - apply prop_other; [|reflexivity]. auto.
  - apply prop_other; [|reflexivity]. apply IH. destruct (proxies (runs l) j); [destruct (ty =? kEvent)|]; exact P.
  - apply prop_other; [|reflexivity]. apply IH. destruct (skeletons (runs l) j); [destruct (ty =? kEvent)|]; exact P.
Qed.

Lemma snoc_inj {A} (a b : list A) x y : a ++ [x] = b ++ [y] -> a = b /\ x = y.
Proof. intros H. apply app_inj_tail in H. exact H. Qed.

Lemma propagated_proxy l i : dead (runs l) = false -> propagated i l -> proxies (runs l) i <> None.
Proof.
  intros D H. revert D. induction H as [h c|h c H IH|h o H IH O]; intros D; rewrite runs_snoc in *; unfold exec in *; destruct (dead (runs h)) eqn:DH; try congruence.
  - unfold propagate. destruct (proxies (runs h) i) eqn:P; [congruence|]. cbn. rewrite upd_eq. cbn. rewrite upd_eq. discriminate.
  - specialize (IH eq_refl). unfold propagate. destruct (proxies (runs h) i) eqn:P; congruence.
  - specialize (IH eq_refl). destruct o as [j c p|j b|j e hh b|j a ev c f b|j|j f|j ty e a b|j ty e|j ty e n]; auto.
    + cbn in O. apply N.eqb_neq in O. unfold propagate. destruct (proxies (runs h) j) eqn:PJ.
      * destruct p; [exact IH|]. cbn. rewrite upd_ne by auto. exact IH.
      * destruct c as [ev|]; [|exact IH]. cbn. rewrite upd_eq. destruct p; cbn; rewrite ?upd_ne by auto; exact IH.
    + destruct (proxies (runs h) j); exact IH.
    + destruct hh; destruct (mem e (subs (runs h) j)); try exact IH; rewrite (proj1 (ask_same _ _ _ _ _)); exact IH.
    + destruct a; [|exact IH]. destruct (skeletons (runs h) j); [rewrite (proj1 (re_register_same _ _ _)); exact IH|].
      destruct c; [|exact IH]. destruct f; exact IH.
    + destruct (proxies (runs h) j); [destruct (ty =? kEvent)|]; exact IH.
    + destruct (skeletons (runs h) j); [destruct (ty =? kEvent)|]; exact IH.
Qed.

(** The gateway survives every history in which services disappear only after having been propagated and the other
    gateway speaks of events only. *)
Theorem C43_survives_partial : forall l, disappearances_ok l -> events_only l -> dead (runs l) = false.
Proof.
  induction l as [|o l IH] using rev_ind; intros DO EO; [reflexivity|].
  assert (D : dead (runs l) = false).
  { apply IH.
    - intros h i stop r E. apply (DO h i stop (r ++ [o])). rewrite E, <- app_assoc. reflexivity.
    - intros x X. apply (EO x). apply in_or_app. left. exact X. }
  rewrite runs_snoc. unfold exec. rewrite D.
  destruct o as [j c p|j b|j e h b|j a ev c f b|j|j f|j ty e a b|j ty e|j ty e n]; auto.
  - unfold propagate. destruct (proxies (runs l) j) eqn:P.
    + destruct p; exact D.
    + destruct c as [ev|]; [|exact D]. cbn. rewrite upd_eq. destruct p; exact D.
  - pose proof (propagated_proxy l j D (DO l j b [] eq_refl)) as P. destruct (proxies (runs l) j); [exact D|congruence].
  - destruct h; destruct (mem e (subs (runs l) j)); try exact D; rewrite (proj2 (ask_same _ _ _ _ _)); exact D.
  - destruct a; [|exact D]. destruct (skeletons (runs l) j); [rewrite (proj2 (re_register_same _ _ _)); exact D|]. destruct c; [|exact D]. destruct f; exact D.
  - pose proof (EO (RUnregister j ty e) ltac:(apply in_or_app; right; left; reflexivity)) as E. cbn in E. subst ty. destruct (proxies (runs l) j); exact D.
  - pose proof (EO (RUpdate j ty e n) ltac:(apply in_or_app; right; left; reflexivity)) as E. cbn in E. subst ty. destruct (skeletons (runs l) j); exact D.
Qed.

(** And exactly those, as far as appearing and disappearing goes: it dies when a service disappears whose last
    propagation failed. *)
Theorem C43_disappearing_kills : forall l i stop, dead (runs l) = false -> (dead (runs (l ++ [Disappeared i stop])) = true <-> ~ propagated i l).
Proof.
  intros l i stop D. rewrite runs_snoc. unfold exec. rewrite D. destruct (proxies (runs l) i) eqn:P.
  - split; [congruence|]. intros N. destruct N. apply proxy_propagated; congruence.
  - split; [|reflexivity]. intros _ H. apply (propagated_proxy l i D H P).
Qed.

(** Service appears, the other gateway is not reachable, service disappears. *)
Theorem C43_transport_failure_refuted : exists l, (forall o, In o l -> match o with Appeared _ _ _ | Disappeared _ _ => True | _ => False end) /\ dead (runs l) = true.
Proof.
  exists [Appeared 1 (Some [7]) false; Disappeared 1 false]. split; [|reflexivity]. intros o [<-|[<-|[]]]; exact I.
Qed.
(** The other gateway can terminate this one with one message. *)
Theorem C43_remote_element_type_refuted : exists l, disappearances_ok l /\ dead (runs l) = true /\
  l = [RProvide 1 true [7] true true (fun _ => true); RUpdate 1 2 7 true].
Proof.
  eexists. split; [|split; [|reflexivity]]; [|reflexivity]. intros h i stop r E. destruct h as [|a [|b [|c h]]]; discriminate.
Qed.

Example C43_example : let l := [Appeared 1 None true; Appeared 1 (Some [7; 8]) false; Appeared 1 (Some [7; 8]) true; RRegister 1 1 7 true true; Disappeared 1 false;
                                Appeared 1 None true; RUnregister 1 1 7; Disappeared 1 true; Disappeared 1 true] in
  disappearances_ok l /\ events_only l /\ dead (runs l) = false.
Proof.
  cbn zeta. split; [|split; [|reflexivity]].
  - assert (P0 : forall h, propagated 1 (h ++ [Appeared 1 (Some [7; 8]) true])) by (intros h; apply prop_new).
    intros h i stop r E.
    assert (N1 : forall o, is_appearance 1 o = false -> forall h', propagated 1 h' -> propagated 1 (h' ++ [o])) by (intros; apply prop_other; assumption).
    destruct h as [|a [|b [|c [|d [|e [|f [|g [|hh [|ii [|jj h]]]]]]]]]]; try discriminate; injection E; intros; subst.
    + pose proof (N1 (RRegister 1 1 7 true true) eq_refl _ (P0 [Appeared 1 None true; Appeared 1 (Some [7; 8]) false])) as X. exact X.
    + pose proof (N1 (RUnregister 1 1 7) eq_refl _ (prop_again 1 _ None (N1 (Disappeared 1 false) eq_refl _ (N1 (RRegister 1 1 7 true true) eq_refl _ (P0 [Appeared 1 None true; Appeared 1 (Some [7; 8]) false]))))) as X. exact X.
    + pose proof (N1 (Disappeared 1 true) eq_refl _ (N1 (RUnregister 1 1 7) eq_refl _ (prop_again 1 _ None (N1 (Disappeared 1 false) eq_refl _ (N1 (RRegister 1 1 7 true true) eq_refl _ (P0 [Appeared 1 None true; Appeared 1 (Some [7; 8]) false])))))) as X. exact X.
  - intros o. cbn. intros H. repeat (destruct H as [<-|H]; [cbn; auto|]). destruct H.
Qed.

(** * C64 *)

(** Whether the skeleton last reported subscribers for event e of service i *)
Fixpoint last_report (i e : N) (l : list op) (d : bool) : bool :=
  match l with
  | [] => d
  | SubscribersChanged j f has _ :: l => last_report i e l (if (j =? i) && (f =? e) then has else d)
  | _ :: l => last_report i e l d
  end.
(** All requests about subscriptions are acknowledged. *)
Definition requests_succeed (l : list op) : Prop := forall o, In o l ->
  match o with SubscribersChanged _ _ _ sent => sent = true | _ => True end.

Lemma last_report_snoc i e l o d : last_report i e (l ++ [o]) d = last_report i e [o] (last_report i e l d).
Proof. revert d. induction l as [|a l IH]; intros d; [reflexivity|]. destruct a; cbn [app last_report]; apply IH. Qed.

Lemma mem_In x l : mem x l = true <-> In x l.
Proof. unfold mem. rewrite existsb_exists. split; [intros (y & Y & E); apply N.eqb_eq in E; subst; exact Y|intros; exists x; split; [assumption|apply N.eqb_refl]]. Qed.
Lemma mem_del x y l : mem x (del y l) = mem x l && negb (x =? y).
Proof.
  induction l as [|a l IH]; [reflexivity|]. unfold mem, del in *. cbn [filter]. destruct (N.eqb_spec a y) as [->|N]; cbn [negb].
  - rewrite IH. cbn [existsb]. destruct (N.eqb_spec x y) as [->|N]; cbn; [rewrite andb_false_r; reflexivity|reflexivity].
  - cbn [existsb]. rewrite IH. destruct (N.eqb_spec x a) as [->|N']; cbn; [|reflexivity]. destruct (N.eqb_spec a y); [congruence|reflexivity].
Qed.

Lemma re_register_asked s i f : forall j e, asked (re_register s i f) j e = asked s j e \/ (j = i /\ mem e (subs s i) = true /\ asked (re_register s i f) j e = true).
Proof.
  intros j e. unfold re_register. set (l := subs s i). clearbody l. revert s. induction l as [|x l IH]; intros s; [left; reflexivity|]. cbn [fold_left].
  destruct (IH (ask s i x true (f x))) as [A|(-> & A & B)].
  - assert (C : asked (ask s i x true (f x)) j e = asked s j e \/ (j = i /\ e = x /\ asked (ask s i x true (f x)) j e = true)).
    { unfold ask. destruct (f x); [|left; reflexivity]. cbn. destruct (N.eq_dec j i) as [->|N]; [|left; rewrite upd_ne by exact N; reflexivity].
      rewrite upd_eq. destruct (N.eq_dec e x) as [->|N]; [right; rewrite upd_eq; auto|left; rewrite upd_ne by exact N; reflexivity]. }
    rewrite A. destruct C as [C|(-> & -> & C)]; [left; exact C|right]. split; [reflexivity|]. split; [cbn; rewrite N.eqb_refl; reflexivity|exact C].
  - right. split; [reflexivity|]. split; [cbn; unfold mem in A; rewrite A; apply orb_true_r|exact B].
Qed.
Lemma re_register_subs s i f : subs (re_register s i f) = subs s.
Proof.
  unfold re_register. generalize (subs s i) as l. intros l. revert s. induction l as [|e l IH]; intros s; [reflexivity|]. cbn [fold_left].
  rewrite IH. unfold ask. destruct (f e); reflexivity.
Qed.

(** The table follows the reports, and if the requests succeed so does the other gateway. *)
Lemma follow l : dead (runs l) = false -> forall i e, mem e (subs (runs l) i) = last_report i e l false /\
  (requests_succeed l -> asked (runs l) i e = last_report i e l false).
Proof.
  induction l as [|o l IH] using rev_ind; intros D i e; [split; reflexivity|]. rewrite last_report_snoc. rewrite runs_snoc in *.
  assert (DL : dead (runs l) = false) by (destruct (dead (runs l)) eqn:X; [unfold exec in D; rewrite X in D; congruence|reflexivity]).
  specialize (IH DL). assert (RS : requests_succeed (l ++ [o]) -> requests_succeed l) by (intros R x X; apply (R x); apply in_or_app; left; exact X).
  unfold exec in *. rewrite DL in *.
  assert (QUIET : forall s, subs s = subs (runs l) -> asked s = asked (runs l) -> mem e (subs s i) = last_report i e l false /\ (requests_succeed (l ++ [o]) -> asked s i e = last_report i e l false)).
  { intros s A B. rewrite A, B. destruct (IH i e) as [X Y]. split; [exact X|intros R; apply Y; auto]. }
  destruct o as [j c p|j b|j e' h b|j a ev c f b|j|j f|j ty e' a b|j ty e'|j ty e' n]; cbn [last_report]; try (apply QUIET; reflexivity).
  - apply QUIET; unfold propagate; destruct (proxies (runs l) j) eqn:P; try (destruct p; reflexivity); destruct c as [ev|]; try reflexivity; cbn; rewrite upd_eq; destruct p; reflexivity.
  - destruct (proxies (runs l) j); apply QUIET; reflexivity.
  - destruct (IH i e) as [X Y]. destruct (N.eqb_spec j i) as [->|NJ]; cbn [andb].
    + destruct (N.eqb_spec e' e) as [->|NE].
      * destruct h; destruct (mem e (subs (runs l) i)) eqn:M.
        -- split; [exact M|]. intros R. rewrite (Y (RS R)). exact (eq_sym X).
        -- split; [unfold ask; destruct b; cbn; rewrite upd_eq; cbn; rewrite N.eqb_refl; reflexivity|].
           intros R. pose proof (R (SubscribersChanged i e true b) ltac:(apply in_or_app; right; left; reflexivity)) as SB. cbn in SB. subst b. cbn. rewrite upd_eq, upd_eq. reflexivity.
        -- split; [unfold ask; destruct b; cbn [set_asked set_subs subs]; rewrite upd_eq, mem_del, N.eqb_refl, andb_false_r; reflexivity|].
           intros R. pose proof (R (SubscribersChanged i e false b) ltac:(apply in_or_app; right; left; reflexivity)) as SB. cbn in SB. subst b. cbn. rewrite upd_eq, upd_eq. reflexivity.
        -- split; [exact M|]. intros R. rewrite (Y (RS R)). exact (eq_sym X).
      * destruct h; destruct (mem e' (subs (runs l) i)) eqn:M.
        -- split; [exact X|auto].
        -- split; [unfold ask; destruct b; cbn [set_asked set_subs subs]; rewrite upd_eq; cbn; (destruct (N.eqb_spec e e'); [congruence|]); exact X|].
           intros R. rewrite <- (Y (RS R)). unfold ask. destruct b; cbn [set_asked asked set_subs]; [|reflexivity]. rewrite upd_eq, upd_ne by auto. reflexivity.
        -- split; [unfold ask; destruct b; cbn [set_asked set_subs subs]; rewrite upd_eq, mem_del; (destruct (N.eqb_spec e e'); [congruence|]); rewrite andb_true_r; exact X|].
           intros R. rewrite <- (Y (RS R)). unfold ask. destruct b; cbn [set_asked asked set_subs]; [|reflexivity]. rewrite upd_eq, upd_ne by auto. reflexivity.
        -- split; [exact X|auto].
    + destruct h; destruct (mem e' (subs (runs l) j)) eqn:M; try (split; [exact X|auto]; fail);
        (split; [unfold ask; destruct b; cbn [set_asked set_subs subs]; rewrite upd_ne by auto; exact X|
                 intros R; rewrite <- (Y (RS R)); unfold ask; destruct b; cbn [set_asked asked set_subs]; [rewrite upd_ne by auto|]; reflexivity]).
  - destruct a; [|apply QUIET; reflexivity]. destruct (skeletons (runs l) j).
    + destruct (IH i e) as [X Y]. rewrite re_register_subs. split; [exact X|]. intros R. specialize (Y (RS R)).
      destruct (re_register_asked (runs l) j b i e) as [A|(-> & A & B)]; [rewrite A; exact Y|]. rewrite B, <- X, A. reflexivity.
    + apply QUIET; destruct c; try destruct f; reflexivity.
  - apply QUIET; destruct (proxies (runs l) j); try destruct (ty =? kEvent); reflexivity.
  - apply QUIET; destruct (skeletons (runs l) j); try destruct (ty =? kEvent); reflexivity.
Qed.

(** If its requests are acknowledged, the other gateway is asked to forward updates of an event exactly while local
    consumers have a receive handler for it, whatever else happens. *)
Theorem C64_follows_subscriptions_partial : forall l i e, dead (runs l) = false -> requests_succeed l ->
  asked (runs l) i e = last_report i e l false.
Proof. intros l i e D R. apply (follow l D i e). exact R. Qed.

(** A request that fails is not repeated, even if the consumers' handlers are reported again. *)
Theorem C64_failed_request_refuted : exists l i e, dead (runs l) = false /\ last_report i e l false = true /\ asked (runs l) i e = false /\
  l = [SubscribersChanged i e true false; SubscribersChanged i e true true].
Proof. exists [SubscribersChanged 1 7 true false; SubscribersChanged 1 7 true true], 1, 7. repeat (split; [reflexivity|]). reflexivity. Qed.
(** And after a failed request to stop, updates go on being forwarded. *)
Theorem C64_failed_unregister_refuted : exists l i e, dead (runs l) = false /\ last_report i e l false = false /\ asked (runs l) i e = true.
Proof. exists [SubscribersChanged 1 7 true true; SubscribersChanged 1 7 false false; SubscribersChanged 1 7 false true], 1, 7. repeat (split; [reflexivity|]). reflexivity. Qed.
(** Only when the service is provided anew is the missing registration made up for. *)
Theorem C64_provide_repairs : forall l i e events create offer, dead (runs l) = false -> skeletons (runs l) i <> None -> last_report i e l false = true ->
  asked (runs (l ++ [RProvide i true events create offer (fun _ => true)])) i e = true.
Proof.
  intros l i e events create offer D S R. rewrite runs_snoc. unfold exec. rewrite D. destruct (skeletons (runs l) i); [|congruence].
  destruct (follow l D i e) as [X _]. rewrite R in X. unfold re_register. apply mem_In in X. revert X. generalize (subs (runs l) i) as k. generalize (runs l) as s.
  intros s k. revert s.
  assert (M : forall k s, asked s i e = true -> asked (fold_left (fun s0 e0 => ask s0 i e0 true true) k s) i e = true).
  { clear. induction k as [|x k IH]; intros s A; [exact A|]. apply IH. cbn. rewrite upd_eq. destruct (N.eq_dec e x) as [->|N]; [rewrite upd_eq; reflexivity|rewrite upd_ne by exact N; exact A]. }
  induction k as [|x k IH]; intros s X; [destruct X|]. cbn [fold_left]. destruct X as [->|X]; [|apply IH; exact X].
  apply M. cbn. rewrite upd_eq, upd_eq. reflexivity.
Qed.

Example C64_example : let l := [RProvide 1 true [7; 8] true true (fun _ => true); SubscribersChanged 1 7 true true; SubscribersChanged 1 8 true true; SubscribersChanged 1 7 true true; SubscribersChanged 1 8 false true] in
  dead (runs l) = false /\ requests_succeed l /\ asked (runs l) 1 7 = true /\ asked (runs l) 1 8 = false.
Proof. cbn zeta. split; [reflexivity|]. split; [|split; reflexivity]. intros o. cbn. intros H. repeat (destruct H as [<-|H]; [exact I || reflexivity|]). destruct H. Qed.

(** * C65 *)

(** Two callbacks that may run at the same time touch the same table, one of them changing it, without both holding
    the mutex. *)
Definition race (o1 o2 : op) : Prop := runs_on o1 <> runs_on o2 /\
  exists a b, In a (accesses o1) /\ In b (accesses o2) /\ tab a = tab b /\ (write a = true \/ write b = true) /\ ~ (locked a = true /\ locked b = true).

(** Discovery callbacks and callbacks of events do not race with each other. *)
Theorem C65_local_callbacks_partial : forall o1 o2, runs_on o1 <> Dispatch -> runs_on o2 <> Dispatch -> ~ race o1 o2.
Proof.
  assert (LK : forall o a, runs_on o <> Dispatch -> In a (accesses o) -> locked a = true).
  { intros [i [c|] [|]|i b|i e h b|i ac ev c f b|i|i f|i ty e a b|i ty e|i ty e n] x D H; cbn in *; try congruence; repeat (destruct H as [<-|H]; [reflexivity|]); destruct H. }
  intros o1 o2 D1 D2 (_ & a & b & A & B & _ & _ & N). apply N. split; [exact (LK o1 a D1 A)|exact (LK o2 b D2 B)].
Qed.
(** Requests of the other gateway are handled without the mutex: looking up a proxy races with adding or removing one. *)
Theorem C65_remote_requests_refuted :
  (forall i j e subscribe handler events provide, race (RRegister i 1 e subscribe handler) (Appeared j (Some events) provide)) /\
  (forall i j events create offer sent e has s, race (RProvide i true events create offer sent) (SubscribersChanged j e has s)).
Proof.
  split; intros.
  - split; [discriminate|]. exists (mkA TProxies false false), (mkA TProxies true true). cbn. split; [auto|]. split; [auto|]. split; [reflexivity|]. split; [auto|]. intros [X _]. discriminate.
  - split; [discriminate|]. exists (mkA TSubs false false), (mkA TSubs true true). cbn. split; [auto|]. split; [auto|]. split; [reflexivity|]. split; [auto|]. intros [X _]. discriminate.
Qed.

Print Assumptions C43_survives_partial.
Print Assumptions C43_disappearing_kills.
Print Assumptions C43_transport_failure_refuted.
Print Assumptions C64_follows_subscriptions_partial.
Print Assumptions C64_provide_repairs.
Print Assumptions C65_remote_requests_refuted.
