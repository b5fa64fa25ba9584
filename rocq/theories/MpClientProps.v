(** C44 (reply callbacks), C45 (order), C46 (queue capacity), C47 (SendWaitReply) and C66 (no abort) for the message
    passing client connection. *)

From Coq Require Import List Bool Arith Lia.
From Verif Require Import MpClientModel MpClientProofs MpClientOrder.
Import ListNotations.

(** ** Specification vocabulary *)

(** Runs of a connection: each step is one that the environment condition [ok] admits. *)
Inductive reach (ok : label -> state -> Prop) (c : cfg) : state -> Prop :=
| reach_init : reach ok c (init c)
| reach_step s l s' : reach ok c s -> ok l s -> step c l s = Some s' -> reach ok c s'.

Definition anything (l : label) (s : state) : Prop := True.

(** The server replies only to requests it received on this connection and has not answered yet. *)
Definition replies_ok (l : label) (s : state) : Prop :=
  match l with LReply r => In r (owed s) | _ => True end.

(** When the engine thread tears the connection down, no SendWaitReply call is between its state check and its wait
    for the reply, and, if the client is truly asynchronous, no other send call is between its state check and its
    return. *)
Definition stop_ok (c : cfg) (l : label) (s : state) : Prop :=
  match l with
  | LStop => forall t,
      match thr s t with
      | Checked e => e_kind e <> KWait /\ c_truly_async c = false
      | Transmit _ | Relock _ false => False
      | _ => True
      end
  | _ => True
  end.

(** A build with debug assertions: no transmission by SendWaitReply fails while other messages are queued. *)
Definition debug_ok (c : cfg) (l : label) (s : state) : Prop :=
  match l with
  | LRelock t => c_dbg c = true -> match thr s t with Relock _ false => queue s = [] | _ => True end
  | _ => True
  end.

Definition orderly (c : cfg) (l : label) (s : state) : Prop := replies_ok l s /\ stop_ok c l s /\ debug_ok c l s.

(** How often the callback of a call has been invoked. *)
Definition runs (e : entry) (l : list ev) : nat := length (filter (is_call e) l).

(** Everything that could still happen without a new call or a stop has happened: the engine thread is idle with no
    pending command, the server owes no reply, and no SendWaitReply is transmitting. *)
Definition settled (s : state) : Prop :=
  eng s = EIdle /\ cmds s = 0 /\ owed s = [] /\
  forall t, match thr s t with Transmit _ | Relock _ false => False | _ => True end.

(** The accepted calls and the messages handed to the transport, oldest first. *)
Definition accepted (l : list ev) : list entry := flat_map (fun v => match v with EvAcc e => [e] | _ => [] end) (rev l).
Definition transmitted (l : list ev) : list entry := flat_map (fun v => match v with EvWire e => [e] | _ => [] end) (rev l).
(** Calls are identified by their number. *)
Definition entry_eqb (e f : entry) : bool := Nat.eqb (e_id e) (e_id f).
(** The transmission of the message failed; the message was discarded from the queue by a stop. *)
Definition failed (l : list ev) (e : entry) : Prop := exists f, In (EvLost f) l /\ e_id f = e_id e.
Definition discarded (l : list ev) (e : entry) : Prop := exists f, In (EvDrop f) l /\ e_id f = e_id e.

(** ** Bridges to the proofs *)

Lemma orderly_polite c l s : orderly c l s -> polite c l s.
Proof. intros [A [B C]]. destruct l; cbn in *; auto. Qed.

Lemma reach_inv c s : reach (orderly c) c s -> inv c s.
Proof.
  induction 1 as [|s l s' R IH O St]; [apply inv_init|]. exact (inv_step c l s s' IH (orderly_polite _ _ _ O) St).
Qed.

Lemma reach_ord c s : (c_fully_ordered c || c_truly_async c = true) -> reach (orderly c) c s -> ord s.
Proof.
  intros Od. induction 1 as [|s l s' R IH O St]; [apply ord_init|].
  exact (ord_step c l s s' (reach_inv c s R) (orderly_polite _ _ _ O) Od IH St).
Qed.

Lemma runs_calls e l : runs e l = calls (e_id e) l.
Proof.
  unfold runs. induction l as [|v l IH]; [reflexivity|]. destruct v; cbn; auto.
  destruct (Nat.eqb (e_id e0) (e_id e)); cbn; rewrite IH; reflexivity.
Qed.

Lemma refd_in e l : In (EvRefuse e) l -> refd (e_id e) l = true.
Proof.
  induction l as [|v l IH]; [intros []|]. intros [X|X].
  - subst v. cbn. rewrite Nat.eqb_refl. reflexivity.
  - specialize (IH X). destruct v; cbn; auto. rewrite IH. apply orb_true_r.
Qed.

Lemma flat_snoc {A B} (f : A -> list B) l x : flat_map f (l ++ [x]) = flat_map f l ++ f x.
Proof. rewrite flat_map_app. cbn. rewrite app_nil_r. reflexivity. Qed.

Lemma accepted_accs l : accepted l = accs l.
Proof.
  unfold accepted. induction l as [|v l IH]; [reflexivity|]. cbn [rev]. rewrite flat_snoc, IH.
  destruct v; cbn; rewrite ?app_nil_r; reflexivity.
Qed.
Lemma transmitted_wires l : transmitted l = wires l.
Proof.
  unfold transmitted. induction l as [|v l IH]; [reflexivity|]. cbn [rev]. rewrite flat_snoc, IH.
  destruct v; cbn; rewrite ?app_nil_r; reflexivity.
Qed.

Lemma idle_held c s : inv c s -> eng s = EIdle -> waiting s = None -> forall i, held s i = 0.
Proof.
  intros I E W i. pose proof (v_eng _ _ I) as G. unfold eng_ok in G. rewrite E in G.
  destruct (d_none _ G W) as [Q _]. unfold held. rewrite E, W, Q. reflexivity.
Qed.

Lemma settled_held c s : inv c s -> settled s \/ life s = Stopped -> forall i, held s i = 0.
Proof.
  intros I H. assert (X : eng s = EIdle /\ waiting s = None).
  { destruct H as [[E [C [O T]]]|L].
    - split; [exact E|]. pose proof (v_eng _ _ I) as G. unfold eng_ok in G. rewrite E in G.
      destruct (waiting s) as [[|e]|] eqn:W; [|exfalso|reflexivity].
      + destruct (d_ph _ G W) as [_ [_ X]]. rewrite C in X. discriminate.
      + destruct (d_held _ G e W) as [_ [X|[_ [t X]]]]; [rewrite O in X; discriminate|]. specialize (T t).
        destruct (thr s t) as [|f|f|f [|]|f]; cbn in X; try discriminate; exact T.
    - destruct (v_life _ _ I) as [L1 _]. destruct (L1 L) as [E Op]. split; [exact E|].
      pose proof (v_eng _ _ I) as G. unfold eng_ok in G. rewrite E in G. exact (d_closed _ G Op). }
  destruct X as [E W]. exact (idle_held c s I E W).
Qed.

(** ** C44: reply callbacks *)

(** No callback is invoked twice. *)
Theorem C44_at_most_once_partial : forall c s e,
  reach (orderly c) c s -> runs e (log s) <= 1.
Proof.
  intros c s e R. rewrite runs_calls. pose proof (v_cnt _ _ (reach_inv c s R) (e_id e)) as N.
  destruct (acc (e_id e) (log s) && negb (refd (e_id e) (log s))); cbn in N; lia.
Qed.

(** Every callback whose SendWithCallback call returned success has been invoked exactly once as soon as the
    connection is stopped, or as soon as the server owes no reply and the engine thread has no work left. *)
Theorem C44_exactly_once_partial : forall c s e,
  reach (orderly c) c s -> In (EvDone e) (log s) -> e_kind e = KCb ->
  settled s \/ life s = Stopped ->
  runs e (log s) = 1.
Proof.
  intros c s e R D K H. pose proof (reach_inv c s R) as I. rewrite runs_calls.
  assert (Ns : is_send e = false) by (unfold is_send; rewrite K; reflexivity).
  destruct (b_done _ (v_base _ _ I) e D Ns) as [A [Rf _]].
  pose proof (v_cnt _ _ I (e_id e)) as N. rewrite A, Rf, (settled_held c s I H) in N. cbn in N. lia.
Qed.

(** The callback of a call that returned an error is never invoked. *)
Theorem C44_refused_never_called_partial : forall c s e,
  reach (orderly c) c s -> In (EvRefuse e) (log s) -> runs e (log s) = 0.
Proof.
  intros c s e R D. pose proof (reach_inv c s R) as I. rewrite runs_calls.
  pose proof (v_cnt _ _ I (e_id e)) as N. rewrite (refd_in _ _ D), andb_false_r in N. cbn in N. lia.
Qed.

(** A callback invoked with a reply gets the reply to its own request. *)
Theorem C44_own_reply_partial : forall c s e r,
  reach (orderly c) c s -> In (EvCall e (Some r)) (log s) -> r = e_id e.
Proof. intros c s e r R. exact (b_match _ (v_base _ _ (reach_inv c s R)) e r). Qed.

(** ** C45: order *)

(** With a fully ordered or truly asynchronous client the transmitted messages are, in this order, exactly those
    accepted calls that have been transmitted, each once; an accepted message that is not on the wire has failed in
    transmission, was discarded by a stop, is still queued or is just being transmitted. *)
Theorem C45_order_partial : forall c s,
  c_fully_ordered c = true \/ c_truly_async c = true -> reach (orderly c) c s ->
  transmitted (log s) = filter (fun e => existsb (entry_eqb e) (transmitted (log s))) (accepted (log s)) /\
  NoDup (map e_id (transmitted (log s))) /\
  forall e, In e (accepted (log s)) ->
    In e (transmitted (log s)) \/ failed (log s) e \/ discarded (log s) e \/ In e (queue s) \/
    (exists k, eng s = ESending e k) \/ (exists t, thr s t = Transmit e).
Proof.
  intros c s Od R. assert (Ob : c_fully_ordered c || c_truly_async c = true) by (destruct Od as [X|X]; rewrite X; auto using orb_true_r).
  pose proof (reach_ord c s Ob R) as O. destruct (ord_result s O) as [W [N G]].
  rewrite !accepted_accs, !transmitted_wires.
  assert (Wi : forall l e, In e (wires l) <-> In (EvWire e) l).
  { intros l e. induction l as [|v l IH]; [cbn; tauto|].
    destruct v; cbn; rewrite <- ?IH; try (split; [intros; right; assumption|intros [X|X]; [discriminate|exact X]]).
    rewrite in_app_iff. cbn. split; [intros [X|[X|[]]]; [auto|left; congruence]|intros [X|X]; [right; left; congruence|auto]]. }
  assert (On : forall l e, onw l e = existsb (entry_eqb e) (wires l)).
  { intros l e. unfold onw. induction l as [|v l IH]; [reflexivity|].
    destruct v; cbn; rewrite IH; try reflexivity. rewrite existsb_app. cbn. unfold entry_eqb. rewrite orb_false_r, orb_comm, Nat.eqb_sym. reflexivity. }
  assert (F : filter (fun e => existsb (entry_eqb e) (wires (log s))) (accs (log s)) = wires (log s)).
  { transitivity (filter (onw (log s)) (accs (log s))); [|symmetry; exact W]. apply filter_ext_in'. intros e _. symmetry. apply On. }
  split; [symmetry; exact F|]. split.
  - rewrite W. clear - N. induction (accs (log s)) as [|x l IH]; [constructor|]. inversion N; subst. cbn.
    destruct (onw (log s) x); [|auto]. cbn. constructor; [|auto]. intros X. apply H1. apply in_map_iff in X.
    destruct X as [f [E I]]. apply filter_In in I. rewrite <- E. apply in_map. apply I.
  - intros e A.
    assert (Uq : forall f, In f (accs (log s)) -> e_id f = e_id e -> f = e).
    { clear - N A. intros f F E. induction (accs (log s)) as [|x l IH]; [destruct A|]. cbn in N. inversion N; subst.
      destruct A as [A|A], F as [F|F]; subst; auto; exfalso; apply H1; [rewrite <- E|rewrite E]; apply in_map; assumption. }
    destruct (G e A) as [X|[X|[X|[X|X]]]]; auto 6.
    + rewrite On in X. apply existsb_exists in X. destruct X as [f [I E]]. apply Nat.eqb_eq in E. left.
      rewrite W in I. apply filter_In in I. destruct I as [I1 I2]. assert (f = e) by (apply Uq; auto). subst f.
      rewrite W. apply filter_In. auto.
    + right. unfold gone in X. apply existsb_exists in X. destruct X as [v [I E]].
      destruct v; try discriminate; apply Nat.eqb_eq in E; [left|right; left]; exists e0; auto.
Qed.

(** If nothing failed and nothing was discarded, the server has got all accepted messages in order once nothing is
    queued or being transmitted. *)
Theorem C45_complete_partial : forall c s,
  c_fully_ordered c = true \/ c_truly_async c = true -> reach (orderly c) c s ->
  (forall e, In e (accepted (log s)) -> ~ failed (log s) e /\ ~ discarded (log s) e) ->
  settled s -> transmitted (log s) = accepted (log s).
Proof.
  intros c s Od R N S. destruct (C45_order_partial c s Od R) as [W [_ G]].
  rewrite W. 
  assert (A : forall e, In e (accepted (log s)) -> existsb (entry_eqb e) (transmitted (log s)) = true).
  { intros e E. apply existsb_exists. exists e. split; [|unfold entry_eqb; apply Nat.eqb_refl].
    destruct (N e E) as [N1 N2]. destruct S as [S1 [S2 [S3 S4]]].
    destruct (G e E) as [X|[X|[X|[X|[X|X]]]]]; auto; try contradiction; exfalso.
    - pose proof (settled_held c s (reach_inv c s R)) as H. pose proof (v_eng _ _ (reach_inv c s R)) as Ge. unfold eng_ok in Ge. rewrite S1 in Ge.
      destruct (waiting s) as [[|f]|] eqn:Wt.
      + destruct (d_ph _ Ge Wt) as [_ [_ Y]]. congruence.
      + destruct (d_held _ Ge f Wt) as [_ [Y|[_ [t Y]]]]; [congruence|]. specialize (S4 t).
        destruct (thr s t) as [|g|g|g [|]|g]; cbn in Y; try discriminate; exact S4.
      + destruct (d_none _ Ge Wt) as [Y _]. rewrite Y in X. destruct X.
    - destruct X as [k X]. congruence.
    - destruct X as [t X]. specialize (S4 t). rewrite X in S4. exact S4. }
  clear - A. induction (accepted (log s)) as [|x l IH]; [reflexivity|]. cbn.
  rewrite (A x (or_introl eq_refl)). f_equal. apply IH. intros e E. apply A. right. exact E.
Qed.

(** ** C46: queue capacity *)

Definition discards (l : list ev) : nat := length (filter (fun v => match v with EvDrop _ => true | _ => false end) l).

(** In every run, a message is refused for lack of queue space only when the queued messages, the one being sent from
    the queue and the messages discarded by earlier stops together make up the configured number. *)
Theorem C46_capacity_partial : forall c s e,
  reach anything c s -> try_queue e s = None ->
  length (queue s) + (match eng s with ESending _ _ | ESent _ _ _ => 1 | _ => 0 end) + discards (log s) = c_cap c.
Proof.
  intros c s e R T.
  assert (P : pool_ok c s).
  { clear T. induction R as [|s l s' R IH _ St]; [unfold pool_ok, init; cbn; lia|]. exact (pool_step c l s s' IH St). }
  assert (D : discards (log s) = drops (log s)).
  { unfold discards. induction (log s) as [|v l IH]; [reflexivity|]. destruct v; cbn; rewrite ?IH; reflexivity. }
  unfold try_queue in T. destruct (pool s) eqn:E; [|discriminate]. unfold pool_ok in P. rewrite E, <- D in P. exact P.
Qed.

(** ** C47: SendWaitReply *)

Lemma step_log c l s s' : step c l s = Some s' ->
  exists vs, log s' = vs ++ log s /\
    forall e, In (EvDone e) vs -> e_kind e = KWait -> vs = [EvDone e] /\ existsb (is_call e) (log s) = true.
Proof.
  assert (Tr : forall e ok s s1 b, transmit e ok s = (s1, b) -> exists v, log s1 = v :: log s /\ (v = EvWire e \/ v = EvLost e)).
  { intros e ok s0 s1 b T. apply transmit_eq in T. destruct T as [[_ [_ T]]|[_ T]]; subst s1; [destruct (is_send e)|]; cbn; eauto. }
  assert (Ar : forall s, log (arm c s) = log s) by (intros; apply pool_arm).
  assert (None_ : forall vs l0, l0 = vs ++ log s -> (forall v, In v vs -> match v with EvDone e => e_kind e <> KWait | _ => True end) ->
     exists vs, l0 = vs ++ log s /\ forall e, In (EvDone e) vs -> e_kind e = KWait -> vs = [EvDone e] /\ existsb (is_call e) (log s) = true).
  { intros vs l0 E V. exists vs. split; [exact E|]. intros e I K. specialize (V _ I). contradiction. }
  assert (Enq : forall t e a, thr s t = Checked e -> exists vs, log (enqueue c t e a s) = vs ++ log s /\ forall v, In v vs -> match v with EvDone e => e_kind e <> KWait | _ => True end).
  { intros t e a _. unfold enqueue, try_queue. destruct (pool s) as [|p].
    - exists [EvRefuse e]. split; [reflexivity|]. intros v [V|[]]; subst; exact I.
    - set (s1 := set_pool p (set_queue (queue s ++ [e]) s)).
      assert (L : log (if a then arm c s1 else s1) = log s) by (destruct a; [rewrite Ar|]; reflexivity).
      destruct (e_kind e) eqn:K; cbn; rewrite L.
      + exists [EvDone e; EvAcc e]. split; [reflexivity|]. intros v [V|[V|[]]]; subst; [rewrite K; discriminate|exact I].
      + exists [EvDone e; EvAcc e]. split; [reflexivity|]. intros v [V|[V|[]]]; subst; [rewrite K; discriminate|exact I].
      + exists [EvAcc e]. split; [reflexivity|]. intros v [V|[]]; subst; exact I. }
  assert (Lp : forall k s0, log (loop_head k s0) = log s0).
  { intros k s0. unfold loop_head, finish. destruct (queue s0); [destruct k as [[sl r]|]|]; reflexivity. }
  intros St. destruct l; cbn [step] in St.
  - destruct (thr s t); try discriminate. destruct (life s); try discriminate. inversion St; subst. apply (None_ []); [reflexivity|intros v []].
  - destruct (thr s t) as [|e|e|e b|e] eqn:T; try discriminate. inversion St; subst. clear St.
    assert (Dir : e_kind e <> KWait -> exists vs, log (let (s1, sent) := transmit e ok (say (EvAcc e) s) in
       if sent then accept_done t e (if is_send e then s1 else set_waiting (Some (Held e)) s1) else refuse t e s) = vs ++ log s
       /\ forall v, In v vs -> match v with EvDone e => e_kind e <> KWait | _ => True end).
    { intros K. destruct (transmit e ok (say (EvAcc e) s)) as [s1 b] eqn:X. destruct (Tr _ _ _ _ _ X) as [v [E V]].
      destruct b.
      - exists [EvDone e; v; EvAcc e]. split; [destruct (is_send e); cbn; rewrite E; reflexivity|].
        intros w [Z|[Z|[Z|[]]]]; subst; [exact K|destruct V; subst; exact I|exact I].
      - exists [EvRefuse e]. split; [reflexivity|]. intros w [Z|[]]; subst; exact I. }
    assert (G : exists vs, log (enter c t e ok s) = vs ++ log s /\ forall v, In v vs -> match v with EvDone e => e_kind e <> KWait | _ => True end).
    { unfold enter. destruct (e_kind e) eqn:K.
      - destruct (negb (c_fully_ordered c) && negb (c_truly_async c)); [apply Dir; discriminate|].
        destruct (waiting s); [apply Enq; exact T|]. destruct (c_truly_async c); [apply Enq; exact T|apply Dir; discriminate].
      - destruct (waiting s); [apply Enq; exact T|]. destruct (c_truly_async c); [apply Enq; exact T|apply Dir; discriminate].
      - destruct (waiting s); [apply Enq; exact T|]. exists [EvAcc e]. split; [reflexivity|]. intros v [V|[]]; subst; exact I. }
    destruct G as [vs [E V]]. exact (None_ vs _ E V).
  - destruct (thr s t) as [|e|e|e b|e] eqn:T; try discriminate.
    destruct (transmit e ok s) as [s1 b] eqn:X. destruct (Tr _ _ _ _ _ X) as [v [E V]]. inversion St; subst.
    apply (None_ [v]); [exact E|]. intros w [W|[]]; subst w; destruct V; subst; exact I.
  - destruct (thr s t) as [|e|e|e b|e] eqn:T; try discriminate. inversion St; subst. unfold relock. destruct b.
    + apply (None_ []); [reflexivity|intros v []].
    + apply (None_ [EvRefuse e]); [|intros v [V|[]]; subst; exact I].
      change (EvRefuse e :: log (match queue s with [] => set_waiting None s | _ => arm c s end) = EvRefuse e :: log s).
      destruct (queue s); [reflexivity|rewrite Ar; reflexivity].
  - destruct (thr s t) as [|e|e|e b|e] eqn:T; try discriminate. destruct (existsb (is_call e) (log s)) eqn:X; try discriminate.
    inversion St; subst. exists [EvDone e]. split; [reflexivity|]. intros f [F|[]] _. inversion F; subst. auto.
  - destruct (eng s); try discriminate. destruct (opened s); try discriminate. cbn in St. apply (None_ []); [|intros v []].
    destruct (waiting s); inversion St; subst; [rewrite Lp; reflexivity|]. unfold stop_request. cbn. destruct (life s); reflexivity.
  - destruct (eng s); try discriminate. destruct (cmds s); try discriminate. inversion St; subst. apply (None_ []); [|intros v []].
    rewrite Lp. reflexivity.
  - assert (G : exists vs, log s' = vs ++ log s /\ forall v, In v vs -> match v with EvDone e => e_kind e <> KWait | _ => True end).
    { unfold eng_step in St. destruct (eng s) as [|e k|e b k|sl k|k|sl r| |sl| |e]; try discriminate.
      - destruct (transmit e ok s) as [s1 b] eqn:X. destruct (Tr _ _ _ _ _ X) as [v [E V]]. inversion St; subst.
        exists [v]. split; [exact E|]. intros w [W|[]]; subst w; destruct V; subst; exact I.
      - exists []. split; [|intros v []]. destruct (is_send e); [inversion St; subst; rewrite Lp; reflexivity|].
        destruct b; [inversion St; subst; unfold finish; destruct k as [[sl r]|]; reflexivity|].
        cbn in St. destruct (waiting s); inversion St; reflexivity.
      - inversion St; subst. destruct sl as [|e]; cbn; [exists []|exists [EvCall e None]]; (split; [reflexivity|]); [intros v []|intros v [V|[]]; subst; exact I].
      - inversion St; subst. exists []. split; [rewrite Lp; reflexivity|intros v []].
      - inversion St; subst. destruct sl as [|e]; cbn; [exists []|exists [EvCall e (Some r)]]; (split; [reflexivity|]); [intros v []|intros v [V|[]]; subst; exact I].
      - exists []. split; [|intros v []]. destruct (waiting s); inversion St; reflexivity.
      - inversion St; subst. destruct sl as [|e]; cbn; [exists []|exists [EvCall e None]]; (split; [reflexivity|]); [intros v []|intros v [V|[]]; subst; exact I].
      - destruct (queue s) as [|e q]; inversion St; subst; cbn; [exists []|exists [EvDrop e]]; (split; [reflexivity|]); [intros v []|intros v [V|[]]; subst; exact I].
      - inversion St; subst. exists [EvCall e None]. split; [reflexivity|]. intros v [V|[]]; subst; exact I. }
    destruct G as [vs [E V]]. exact (None_ vs _ E V).
  - inversion St; subst. apply (None_ []); [unfold stop_request; destruct (life s); reflexivity|intros v []].
  - destruct (eng s); try discriminate. destruct (stopreq s); try discriminate. inversion St; subst. apply (None_ []); [reflexivity|intros v []].
  - destruct (life s); try discriminate. inversion St; subst. apply (None_ []); [reflexivity|intros v []].
  - destruct (eng s); try discriminate. destruct (life s); try discriminate. inversion St; subst. apply (None_ []); [reflexivity|intros v []].
Qed.

Lemma app_split {A} (vs l l1 l2 : list A) x : vs ++ l = l1 ++ x :: l2 ->
  (exists v2, vs = l1 ++ x :: v2 /\ l2 = v2 ++ l) \/ (exists l1', l1 = vs ++ l1' /\ l = l1' ++ x :: l2).
Proof.
  revert l1. induction vs as [|v vs IH]; intros l1 E; [right; exists l1; auto|].
  destruct l1 as [|y l1]; cbn in E; inversion E; subst; [left; exists vs; auto|].
  destruct (IH l1 H1) as [[v2 [A1 A2]]|[l1' [A1 A2]]]; subst; [left; exists v2; auto|right; exists l1'; auto].
Qed.

(** SendWaitReply returns only after its callback has run: any run. *)
Lemma done_after_call ok c s : reach ok c s -> forall l1 e l2, log s = l1 ++ EvDone e :: l2 -> e_kind e = KWait -> calls (e_id e) l2 >= 1.
Proof.
  induction 1 as [|s l s' R IH _ St]; intros l1 e l2 E K; [destruct l1; discriminate|].
  destruct (step_log c l s s' St) as [vs [L V]]. rewrite L in E. apply app_split in E.
  destruct E as [[v2 [E1 E2]]|[l1' [E1 E2]]]; [|exact (IH _ _ _ E2 K)].
  destruct (V e) as [V1 V2]; [rewrite E1; apply in_or_app; right; left; reflexivity|exact K|].
  rewrite V1 in E1. destruct l1 as [|y l1]; cbn in E1; inversion E1; subst; [|destruct l1; discriminate].
  cbn. apply calls_existsb. exact V2.
Qed.

Lemma calls_app i l r : calls i (l ++ r) = calls i l + calls i r.
Proof. induction l as [|v l IH]; [reflexivity|]. destruct v; cbn; rewrite ?IH; lia. Qed.

(** The callback of a SendWaitReply call, which writes to the caller's reply buffer and wait object, is never invoked
    after that call has returned. *)
Theorem C47_no_late_callback_partial : forall c s e r l1 l2,
  reach (orderly c) c s -> e_kind e = KWait ->
  log s = l1 ++ EvCall e r :: l2 ->          (* [l2]: what happened before the invocation *)
  ~ In (EvDone e) l2 /\ ~ In (EvRefuse e) l2.
Proof.
  intros c s e r l1 l2 R K E. pose proof (v_cnt _ _ (reach_inv c s R) (e_id e)) as N.
  assert (C : calls (e_id e) (log s) >= 1 + calls (e_id e) l2).
  { rewrite E, calls_app. cbn. rewrite Nat.eqb_refl. cbn. lia. }
  split; intros I.
  - apply in_split in I. destruct I as [a [b I]]. subst l2.
    assert (X : calls (e_id e) b >= 1) by (apply (done_after_call _ c s R (l1 ++ EvCall e r :: a)); [rewrite E, <- app_assoc; reflexivity|exact K]).
    rewrite calls_app in C. cbn in C. destruct (acc (e_id e) (log s) && negb (refd (e_id e) (log s))); cbn in N; lia.
  - assert (X : refd (e_id e) (log s) = true) by (apply refd_in; rewrite E; apply in_or_app; right; right; exact I).
    rewrite X, andb_false_r in N. cbn in N. lia.
Qed.

(** A SendWaitReply call that returns after acceptance has had its callback invoked exactly once. *)
Theorem C47_returns_after_callback_partial : forall c s e,
  reach (orderly c) c s -> e_kind e = KWait -> In (EvDone e) (log s) -> runs e (log s) = 1.
Proof.
  intros c s e R K D. pose proof (C44_at_most_once_partial c s e R) as U.
  assert (Ns : is_send e = false) by (unfold is_send; rewrite K; reflexivity).
  destruct (b_done _ (v_base _ _ (reach_inv c s R)) e D Ns) as [_ [_ X]]. specialize (X K). rewrite runs_calls in *. lia.
Qed.

(** ** C66: the connection does not abort the process *)

Theorem C66_no_abort_partial : forall c s, reach (orderly c) c s -> bad s = false.
Proof. intros c s R. exact (b_bad _ (v_base _ _ (reach_inv c s R))). Qed.

(** ** Findings *)

Fixpoint exec (c : cfg) (ls : list label) (s : state) : option state :=
  match ls with
  | [] => Some s
  | l :: r => match step c l s with Some s' => exec c r s' | None => None end
  end.
Fixpoint exec_ok (ok : label -> state -> Prop) (c : cfg) (ls : list label) (s : state) : Prop :=
  match ls with
  | [] => True
  | l :: r => ok l s /\ match step c l s with Some s' => exec_ok ok c r s' | None => False end
  end.
Lemma exec_reach ok c ls : forall s s', reach ok c s -> exec_ok ok c ls s -> exec c ls s = Some s' -> reach ok c s'.
Proof.
  induction ls as [|l r IH]; cbn; intros s s' R O E; [inversion E; subst; exact R|].
  destruct O as [O1 O2]. destruct (step c l s) as [s1|] eqn:St; [|discriminate].
  exact (IH s1 s' (reach_step ok c s l s1 R O1 St) O2 E).
Qed.


Lemma exec_run ok c ls s : exec_ok ok c ls (init c) -> exec c ls (init c) = Some s -> reach ok c s.
Proof. intros O E. exact (exec_reach ok c ls (init c) s (reach_init ok c) O E). Qed.

Ltac admit_run := vm_compute; repeat match goal with
  | |- True => exact I
  | |- _ /\ _ => split
  | |- _ \/ _ => first [left; reflexivity | right; left; reflexivity]
  | |- @eq nat _ _ => reflexivity
  | |- @eq (list _) _ _ => reflexivity
  | |- @eq bool _ _ => reflexivity
  | |- false = true -> _ => discriminate
  | |- true = true -> _ => intros _
  | |- _ = _ -> False => discriminate
  | |- forall t : nat, _ => intros [|[|?]]; vm_compute
  end.
Ltac by_run ls :=
  eexists; split; [eapply (exec_run _ _ ls); [admit_run | vm_compute; reflexivity] |].

Definition async1 : cfg := mkCfg 1 false true false.     (* truly asynchronous, one queue element *)
Definition async2 : cfg := mkCfg 2 false true false.
Definition ordered2 : cfg := mkCfg 2 true false false.   (* fully ordered, two queue elements *)
Definition debug2 : cfg := mkCfg 2 true false true.

(** C46. Truly asynchronous client with one queue element. A message is queued, the connection is stopped before the
    engine thread sent it, and restarted. Nothing is queued, yet the next Send is refused. The run is orderly. *)
Theorem C46_restart_refuted : exists s, reach (orderly async1) async1 s /\
  queue s = [] /\ eng s = EIdle /\ life s = Ready /\ In (EvRefuse (mkE 1 KSend)) (log s) /\ pool s = 0.
Proof.
  by_run [LConnect; LBegin 0 KSend; LEnter 0 true; LStopReq; LStop; LEng true; LEng true; LEng true; LEng true;
          LRestart; LConnect; LBegin 0 KSend; LEnter 0 true].
  vm_compute. auto 10.
Qed.

(** C66. A server that sends a reply nobody asked for makes the client call an empty callback. *)
Theorem C66_unsolicited_reply_refuted : exists s,
  reach (fun l st => stop_ok async1 l st /\ debug_ok async1 l st) async1 s /\ bad s = true.
Proof. by_run [LConnect; LBegin 0 KSend; LEnter 0 true; LReply 7; LEng true; LEng true; LEng true]. reflexivity. Qed.

(** C66. Two senders that passed the state check before the teardown insert the same command twice. *)
Theorem C66_late_senders_refuted : exists s,
  reach (fun l st => replies_ok l st /\ debug_ok async2 l st) async2 s /\ bad s = true.
Proof.
  by_run [LConnect; LBegin 0 KSend; LBegin 1 KSend; LStopReq; LStop; LEnter 0 true; LEng true; LEnter 1 true]. reflexivity.
Qed.

(** C66. In a build with debug assertions a failing SendWaitReply with messages queued behind it trips an assertion. *)
Theorem C66_debug_assertion_refuted : exists s,
  reach (fun l st => replies_ok l st /\ stop_ok debug2 l st) debug2 s /\ bad s = true.
Proof.
  by_run [LConnect; LBegin 0 KWait; LEnter 0 true; LBegin 1 KSend; LEnter 1 true; LSend 0 false; LRelock 0]. reflexivity.
Qed.

(** C44. A SendWaitReply that was transmitting when the connection was stopped and restarted erases the pending callback
    of a later call: that callback is never invoked although the connection has been stopped again. *)
Theorem C44_stop_race_refuted : exists s e,
  reach (fun l st => replies_ok l st /\ debug_ok ordered2 l st) ordered2 s /\
  e_kind e = KCb /\ In (EvDone e) (log s) /\ life s = Stopped /\ settled s /\ runs e (log s) = 0.
Proof.
  enough (X : exists s, reach (fun l st => replies_ok l st /\ debug_ok ordered2 l st) ordered2 s /\
    In (EvDone (mkE 1 KCb)) (log s) /\ life s = Stopped /\ settled s /\ runs (mkE 1 KCb) (log s) = 0).
  { destruct X as [s X]. exists s, (mkE 1 KCb). intuition. }
  by_run [LConnect; LBegin 0 KWait; LEnter 0 true; LSend 0 false; LStopReq; LStop; LEng true; LEng true; LEng true;
          LRestart; LConnect; LBegin 1 KCb; LEnter 1 true; LRelock 0; LReply 1; LStop; LEng true; LEng true].
  vm_compute. repeat split; auto. intros [|[|t]]; exact I.
Qed.

(** C44. A reply nobody asked for reaches the callback of an unrelated call. *)
Theorem C44_unsolicited_reply_refuted : exists s,
  reach (fun l st => stop_ok ordered2 l st /\ debug_ok ordered2 l st) ordered2 s /\
  In (EvCall (mkE 0 KCb) (Some 9)) (log s).
Proof. by_run [LConnect; LBegin 0 KCb; LEnter 0 true; LReply 9; LEng true]. vm_compute. auto. Qed.

(** C47. SendWaitReply fails to transmit while the connection is torn down: it returns the error and its callback, which
    refers to the caller's finished stack frame, is invoked afterwards. *)
Theorem C47_stop_race_refuted : exists s,
  reach (fun l st => replies_ok l st /\ debug_ok ordered2 l st) ordered2 s /\
  exists l, log s = EvCall (mkE 0 KWait) None :: EvRefuse (mkE 0 KWait) :: l.
Proof.
  by_run [LConnect; LBegin 0 KWait; LEnter 0 true; LSend 0 false; LStopReq; LStop; LEng true; LRelock 0; LEng true].
  vm_compute. eauto.
Qed.

(** C45. A reply nobody asked for lets a later message overtake a SendWaitReply that is about to be transmitted. *)
Theorem C45_unsolicited_reply_refuted : exists s,
  reach (fun l st => stop_ok ordered2 l st /\ debug_ok ordered2 l st) ordered2 s /\
  accepted (log s) = [mkE 0 KWait; mkE 1 KSend] /\ transmitted (log s) = [mkE 1 KSend; mkE 0 KWait].
Proof.
  by_run [LConnect; LBegin 0 KWait; LEnter 0 true; LBegin 1 KSend; LEnter 1 true; LReply 9; LEng true; LEng true; LEng true;
          LSend 0 true].
  vm_compute. auto.
Qed.

(** C45. Without full ordering and without true asynchrony Send overtakes queued messages, as documented. *)
Example C45_unordered_example : let c := mkCfg 2 false false false in exists s,
  reach (orderly c) c s /\
  accepted (log s) = [mkE 0 KCb; mkE 1 KCb; mkE 2 KSend] /\ transmitted (log s) = [mkE 0 KCb; mkE 2 KSend].
Proof.
  by_run [LConnect; LBegin 0 KCb; LEnter 0 true; LBegin 0 KCb; LEnter 0 true; LBegin 0 KSend; LEnter 0 true].
  vm_compute. auto.
Qed.

(** ** The hypotheses are met: one orderly run with a direct callback, two queued messages, a SendWaitReply, a failed
    transmission from the queue, replies and a stop with a pending callback. *)
Example Client_example : exists s, reach (orderly ordered2) ordered2 s /\
  settled s /\ life s = Stopped /\ bad s = false /\
  accepted (log s) = [mkE 0 KCb; mkE 1 KWait; mkE 2 KSend; mkE 3 KCb; mkE 4 KCb] /\
  transmitted (log s) = [mkE 0 KCb; mkE 1 KWait; mkE 2 KSend; mkE 4 KCb] /\
  map (fun i => runs (mkE i KCb) (log s)) [0;1;2;3;4] = [1;1;0;1;1] /\
  In (EvCall (mkE 0 KCb) (Some 0)) (log s) /\ In (EvCall (mkE 1 KWait) (Some 1)) (log s) /\
  In (EvCall (mkE 3 KCb) None) (log s) /\ In (EvCall (mkE 4 KCb) None) (log s) /\ In (EvDone (mkE 1 KWait)) (log s).
Proof.
  by_run [LConnect; LBegin 0 KCb; LEnter 0 true; LBegin 1 KWait; LEnter 1 true; LBegin 0 KSend; LEnter 0 true;
          LReply 0; LEng true; LEng true; LEng true;            (* 1 goes out, then the callback of 0 runs *)
          LBegin 0 KCb; LEnter 0 true;
          LReply 1; LEng true; LEng true; LEng false; LEng true; LEng true; LEng true; LEng true;
          LDone 1; LBegin 0 KCb; LEnter 0 true; LStopReq; LStop; LEng true; LEng true; LEng true].
  vm_compute. repeat split; auto 20. intros [|[|t]]; exact I.
Qed.

(** A truly asynchronous run whose messages all arrive. *)
Example C45_complete_example : exists s, reach (orderly async2) async2 s /\ settled s /\
  transmitted (log s) = [mkE 0 KSend; mkE 1 KCb].
Proof.
  by_run [LConnect; LBegin 0 KSend; LEnter 0 true; LBegin 1 KCb; LEnter 1 true; LCmd; LEng true; LEng true; LEng true; LEng true;
          LReply 1; LEng true].
  vm_compute. repeat split; auto. intros [|[|t]]; exact I.
Qed.

(** The queue is full: both elements are used. *)
Example C46_example : exists s, reach anything async2 s /\ try_queue (mkE 9 KSend) s = None /\ length (queue s) = 2.
Proof.
  by_run [LConnect; LBegin 0 KSend; LEnter 0 true; LBegin 0 KSend; LEnter 0 true]. vm_compute. auto.
Qed.

Print Assumptions C44_exactly_once_partial.
Print Assumptions C45_order_partial.
Print Assumptions C45_complete_partial.
Print Assumptions C46_capacity_partial.
Print Assumptions C47_no_late_callback_partial.
Print Assumptions C66_no_abort_partial.
