(** Order of messages of the client connection machine (MpClientModel.v). *)

From Coq Require Import List Bool Arith Lia.
From Verif Require Import MpClientModel MpClientProofs.
Import ListNotations.

Local Arguments transmit : simpl never.
Local Arguments arm : simpl never.

(** The calls in the order in which they took their place, oldest first; the messages on the wire, oldest first. *)
Fixpoint accs (l : list ev) : list entry :=
  match l with [] => [] | EvAcc e :: r => accs r ++ [e] | _ :: r => accs r end.
Fixpoint wires (l : list ev) : list entry :=
  match l with [] => [] | EvWire e :: r => wires r ++ [e] | _ :: r => wires r end.
Definition onw (l : list ev) (e : entry) : bool :=
  existsb (fun v => match v with EvWire f => Nat.eqb (e_id f) (e_id e) | _ => false end) l.
Definition gone (l : list ev) (e : entry) : bool :=
  existsb (fun v => match v with EvLost f | EvDrop f => Nat.eqb (e_id f) (e_id e) | _ => false end) l.

Definition ordc (l : list ev) (q cur : list entry) : Prop :=
  exists D, accs l = D ++ cur ++ q /\ NoDup (map e_id (accs l)) /\ wires l = filter (onw l) D /\
    (forall e, In e (cur ++ q) -> onw l e = false) /\ (forall e, In e D -> onw l e = true \/ gone l e = true).

Lemma fresh_onw e l : fresh (e_id e) l -> onw l e = false.
Proof.
  unfold onw. induction l as [|v l IH]; [reflexivity|]. intros F. cbn.
  rewrite IH by (apply (fresh_tl _ v); exact F). pose proof (F v (or_introl eq_refl)) as N.
  destruct v; cbn in *; auto. apply Nat.eqb_neq in N. rewrite N. reflexivity.
Qed.
Lemma accs_in e l : In e (accs l) <-> In (EvAcc e) l.
Proof.
  induction l as [|v l IH]; [cbn; tauto|]. destruct v; cbn; rewrite <- ?IH; try (split; [intros; right; assumption|intros [X|X]; [discriminate|exact X]]).
  rewrite in_app_iff. cbn. split.
  - intros [X|[X|[]]]; [auto|]. left. congruence.
  - intros [X|X]; [right; left; congruence|auto].
Qed.

Lemma filter_ext_in' {A} (f g : A -> bool) l : (forall x, In x l -> f x = g x) -> filter f l = filter g l.
Proof.
  induction l as [|x l IH]; [reflexivity|]. intros H. cbn. rewrite (H x (or_introl eq_refl)), IH; [reflexivity|].
  intros y Y. apply H. right. exact Y.
Qed.

Lemma oc_other l q cur v : match v with EvAcc _ | EvWire _ => False | _ => True end -> ordc l q cur -> ordc (v :: l) q cur.
Proof.
  intros V [D [A [N [W [U G]]]]]. exists D.
  assert (Ea : accs (v :: l) = accs l) by (destruct v; cbn; auto; destruct V).
  assert (Ew : wires (v :: l) = wires l) by (destruct v; cbn; auto; destruct V).
  assert (Eo : forall e, onw (v :: l) e = onw l e) by (intros e; destruct v; cbn; auto; destruct V).
  rewrite Ea, Ew. split; [exact A|]. split; [exact N|]. split.
  - rewrite W. apply filter_ext_in'. intros x _. symmetry. apply Eo.
  - split; [intros e E; rewrite Eo; auto|]. intros e E. rewrite Eo. destruct (G e E) as [X|X]; [auto|right].
    unfold gone in *. cbn. rewrite X. apply orb_true_r.
Qed.

Lemma NoDup_snoc {A} (l : list A) x : NoDup l -> ~ In x l -> NoDup (l ++ [x]).
Proof.
  intros N H. induction N as [|y l Y N IH]; cbn; [constructor; [intros []|constructor]|].
  constructor.
  - rewrite in_app_iff. cbn. intros [X|[X|[]]]; [contradiction|]. subst. apply H. left. reflexivity.
  - apply IH. intros X. apply H. right. exact X.
Qed.

Lemma oc_nodup e l : fresh (e_id e) l -> NoDup (map e_id (accs l)) -> NoDup (map e_id (accs l ++ [e])).
Proof.
  intros F N. rewrite map_app. cbn. apply NoDup_snoc; [exact N|].
  rewrite in_map_iff. intros [f [E I]]. apply accs_in in I. apply (F _ I). exact E.
Qed.

Lemma oc_enq l q cur e : fresh (e_id e) l -> ordc l q cur -> ordc (EvAcc e :: l) (q ++ [e]) cur.
Proof.
  intros F [D [A [N [W [U G]]]]]. exists D. cbn [accs wires]. split; [rewrite A, <- !app_assoc; reflexivity|].
  split; [apply oc_nodup; assumption|]. split; [exact W|]. split; [|exact G].
  intros f I. rewrite app_assoc in I. apply in_app_or in I. destruct I as [I|[I|[]]]; [exact (U f I)|].
  subst f. exact (fresh_onw _ _ F).
Qed.

Lemma oc_begin l e : fresh (e_id e) l -> ordc l [] [] -> ordc (EvAcc e :: l) [] [e].
Proof.
  intros F [D [A [N [W [U G]]]]]. exists D. cbn [accs wires]. split; [rewrite A, !app_nil_r; reflexivity|].
  split; [apply oc_nodup; assumption|]. split; [exact W|]. split; [|exact G].
  intros f [I|[]]. subst f. exact (fresh_onw _ _ F).
Qed.

Lemma NoDup_split {A} (l r : list A) x : NoDup (l ++ x :: r) -> ~ In x l /\ ~ In x r.
Proof.
  intros N. apply NoDup_remove in N. destruct N as [_ N]. split; intros X; apply N; apply in_or_app; auto.
Qed.

Lemma filter_app' {A} (f : A -> bool) l r : filter f (l ++ r) = filter f l ++ filter f r.
Proof. induction l as [|x l IH]; [reflexivity|]. cbn. rewrite IH. destruct (f x); reflexivity. Qed.

Lemma oc_wire l q e : ordc l q [e] -> ordc (EvWire e :: l) q [].
Proof.
  intros [D [A [N [W [U G]]]]]. exists (D ++ [e]). cbn [accs wires]. split; [rewrite A, <- app_assoc; reflexivity|].
  split; [exact N|]. rewrite A, map_app in N. cbn in N. apply NoDup_split in N. destruct N as [N1 N2].
  assert (Ne : forall f, In f D \/ In f q -> Nat.eqb (e_id e) (e_id f) = false).
  { intros f [I|I]; apply Nat.eqb_neq; intros E; [apply N1|apply N2]; rewrite E; apply in_map; exact I. }
  split; [|split].
  - rewrite filter_app', W. cbn [filter]. unfold onw at 3. cbn. rewrite Nat.eqb_refl. cbn. f_equal.
    apply filter_ext_in'. intros f I. unfold onw at 2. cbn. rewrite Ne by auto. reflexivity.
  - intros f I. cbn in I. unfold onw. cbn. rewrite Ne by auto. cbn. apply U. right. exact I.
  - intros f I. apply in_app_or in I. unfold onw, gone. cbn. destruct I as [I|[I|[]]].
    + rewrite Ne by auto. cbn. exact (G f I).
    + subst f. rewrite Nat.eqb_refl. auto.
Qed.

Lemma oc_settle l q cur' e v : (v = EvLost e \/ v = EvDrop e) -> ordc l q (e :: cur') -> ordc (v :: l) q cur'.
Proof.
  intros V [D [A [N [W [U G]]]]]. exists (D ++ [e]).
  assert (Ea : accs (v :: l) = accs l) by (destruct V; subst; reflexivity).
  assert (Ew : wires (v :: l) = wires l) by (destruct V; subst; reflexivity).
  assert (Eo : forall e, onw (v :: l) e = onw l e) by (intros f; destruct V; subst; reflexivity).
  rewrite Ea, Ew. split; [rewrite A, <- app_assoc; reflexivity|]. split; [exact N|]. split; [|split].
  - rewrite filter_app'. cbn [filter]. rewrite Eo, (U e (or_introl eq_refl)), app_nil_r, W.
    apply filter_ext_in'. intros f _. symmetry. apply Eo.
  - intros f I. rewrite Eo. apply U. right. exact I.
  - intros f I. rewrite Eo. apply in_app_or in I. destruct I as [I|[I|[]]].
    + destruct (G f I) as [X|X]; [auto|right]. unfold gone in *. cbn. rewrite X. apply orb_true_r.
    + subst f. right. unfold gone. cbn. destruct V; subst; cbn; rewrite Nat.eqb_refl; reflexivity.
Qed.

Lemma oc_pop l q e : ordc l (e :: q) [] -> ordc l q [e].
Proof. intros H. exact H. Qed.

Lemma oc_drop l q e : ordc l (e :: q) [] -> ordc (EvDrop e :: l) q [].
Proof. intros H. apply (oc_settle _ _ _ e); [right; reflexivity|]. apply oc_pop. exact H. Qed.

(** The message being transmitted. *)
Definition src (s : state) (e : entry) : Prop := (exists k, eng s = ESending e k) \/ exists t, thr s t = Transmit e.

Definition ord (s : state) : Prop :=
  exists cur, ordc (log s) (queue s) cur /\
    ((cur = [] /\ forall e, ~ src s e) \/ (exists e, cur = [e] /\ src s e /\ forall f, src s f -> f = e)).

Lemma ord_none s : ord s -> (forall e, ~ src s e) -> ordc (log s) (queue s) [].
Proof. intros [cur [O [[E _]|[e [_ [S _]]]]]] N; [subst; exact O|]. destruct (N e S). Qed.

Lemma ord_some s e : ord s -> src s e -> ordc (log s) (queue s) [e] /\ forall f, src s f -> f = e.
Proof. intros [cur [O [[_ N]|[f [E [S U]]]]]] H; [destruct (N e H)|]. specialize (U e H) as U'. subst. auto. Qed.

(** A step that keeps the messages and the transmitter. *)
Lemma ord_frame s s' : ord s ->
  (forall cur, ordc (log s) (queue s) cur -> ordc (log s') (queue s') cur) ->
  (forall e, src s' e <-> src s e) -> ord s'.
Proof.
  intros [cur [O C]] H S. exists cur. split; [auto|]. destruct C as [[E N]|[e [E [Se U]]]].
  - left. split; [exact E|]. intros e X. apply S in X. exact (N e X).
  - right. exists e. split; [exact E|]. split; [apply S; exact Se|]. intros f F. apply U. apply S. exact F.
Qed.

Lemma src_thr s s' t p : eng s' = eng s -> (forall u, thr s' u = if Nat.eqb u t then p else thr s u) ->
  (forall e, thr s t <> Transmit e) -> (forall e, p <> Transmit e) -> forall e, src s' e <-> src s e.
Proof.
  intros G T A B e. unfold src. rewrite G. split; (intros [X|[u U]]; [left; exact X|right]).
  - rewrite T in U. destruct (Nat.eqb_spec u t); [destruct (B e U)|eauto].
  - exists u. rewrite T. destruct (Nat.eqb_spec u t) as [E|E]; [subst; destruct (A e U)|exact U].
Qed.

Lemma ord_loop k s : ordc (log s) (queue s) [] -> (forall t e, thr s t <> Transmit e) -> ord (loop_head k s).
Proof.
  intros O T. unfold loop_head. destruct (queue s) as [|e q] eqn:Q.
  - exists []. unfold finish. destruct k as [[sl r]|]; cbn; rewrite Q; (split; [exact O|]); left; (split; [reflexivity|]);
      intros f [[k' X]|[t X]]; cbn in X; [discriminate|exact (T t f X)|discriminate|exact (T t f X)].
  - exists [e]. cbn. split; [apply oc_pop; exact O|]. right. exists e. split; [reflexivity|]. split; [left; eexists; reflexivity|].
    intros f [[k' X]|[t X]]; cbn in X; [inversion X; reflexivity|destruct (T t f X)].
Qed.

Lemma no_transmit c s : inv c s -> (~ calm (eng s) \/ owed s <> [] \/ cmds s <> 0 \/ opened s = false) -> forall t e, thr s t <> Transmit e.
Proof. intros I H t e T. pose proof (no_tx c s I H t) as X. rewrite T in X. discriminate. Qed.

Lemma ord_enqueue c t e a s : ord s -> thr s t = Checked e -> fresh (e_id e) (log s) -> ord (enqueue c t e a s).
Proof.
  intros O T F. unfold enqueue, try_queue. destruct (pool s) as [|p].
  - apply (ord_frame s _ O).
    + intros cur. cbn. apply oc_other. exact I.
    + apply (src_thr s _ t Idle); auto; [rewrite T|]; discriminate.
  - set (s1 := set_pool p (set_queue (queue s ++ [e]) s)).
    assert (X : eng (if a then arm c s1 else s1) = eng s /\ queue (if a then arm c s1 else s1) = queue s ++ [e] /\
                log (if a then arm c s1 else s1) = log s /\ thr (if a then arm c s1 else s1) = thr s).
    { destruct a; [|auto]. unfold arm. destruct (waiting s1); [destruct (c_dbg c)|]; cbn; destruct (cmds s); cbn; auto. }
    destruct X as [X1 [X2 [X3 X4]]].
    assert (M : forall p' vs s', (forall f, p' <> Transmit f) -> vs = [EvAcc e] \/ vs = [EvDone e; EvAcc e] ->
       eng s' = eng s -> queue s' = queue s ++ [e] -> log s' = vs ++ log s ->
       (forall u, thr s' u = if Nat.eqb u t then p' else thr s u) -> ord s').
    { intros p' vs s' P V E1 E2 E3 E4. apply (ord_frame s _ O).
      - intros cur Oc. rewrite E2, E3. destruct V; subst vs; cbn; [apply oc_enq; assumption|].
        apply oc_other; [exact I|]. apply oc_enq; assumption.
      - apply (src_thr s _ t p'); auto. rewrite T. discriminate. }
    destruct (e_kind e).
    + apply (M Idle [EvDone e; EvAcc e]); cbn; try discriminate; try (right; reflexivity); try (left; reflexivity);
        [exact X1|exact X2|rewrite X3; reflexivity|intros u; rewrite X4; reflexivity].
    + apply (M Idle [EvDone e; EvAcc e]); cbn; try discriminate; try (right; reflexivity); try (left; reflexivity);
        [exact X1|exact X2|rewrite X3; reflexivity|intros u; rewrite X4; reflexivity].
    + apply (M (WaitFor e) [EvAcc e]); cbn; try discriminate; try (right; reflexivity); try (left; reflexivity);
        [exact X1|exact X2|rewrite X3; reflexivity|intros u; rewrite X4; reflexivity].
Qed.

Lemma ord_enter c t e ok s : inv c s -> ord s -> (c_fully_ordered c || c_truly_async c = true) -> thr s t = Checked e ->
  ord (enter c t e ok s).
Proof.
  intros I O Od T.
  assert (Fr : fresh (e_id e) (log s)) by (pose proof (b_thr _ (v_base _ _ I) t) as X; rewrite T in X; apply X).
  assert (Quiet : waiting s = None -> opened s = true -> queue s = [] /\ forall f, ~ src s f).
  { intros W Op. pose proof (calm_of c s I W Op) as Cm. pose proof (idle_of c s I Cm) as Id.
    destruct (d_none _ Id W) as [Q _]. split; [exact Q|]. intros f [[k X]|[u X]]; [rewrite X in Cm; exact Cm|].
    destruct (v_tx _ _ I u f) as [Y _]; [rewrite X; reflexivity|]. congruence. }
  assert (Ref : ord (refuse t e s)).
  { apply (ord_frame s _ O).
    + intros cur. cbn. apply oc_other. exact Logic.I.
    + apply (src_thr s _ t Idle); auto; [rewrite T|]; discriminate. }
  assert (Dir : waiting s = None ->
    ord (let (s1, sent) := transmit e ok (say (EvAcc e) s) in
       if sent then accept_done t e (if is_send e then s1 else set_waiting (Some (Held e)) s1) else refuse t e s)).
  { intros W. destruct (transmit e ok (say (EvAcc e) s)) as [s1 b] eqn:Tr. apply transmit_eq in Tr.
    destruct Tr as [[Eb [Op Es]]|[Eb Es]]; subst b s1; [|exact Ref].
    destruct (Quiet W Op) as [Q N]. pose proof (ord_none s O N) as Oc.
    assert (O3 : ordc (EvDone e :: EvWire e :: EvAcc e :: log s) (queue s) []).
    { apply oc_other; [exact Logic.I|]. rewrite Q in *. apply oc_wire. apply oc_begin; assumption. }
    assert (Fin : forall s', eng s' = eng s -> queue s' = queue s -> log s' = EvDone e :: EvWire e :: EvAcc e :: log s ->
       (forall u, thr s' u = if Nat.eqb u t then Idle else thr s u) -> ord s').
    { intros s' E1 E2 E3 E4. exists []. rewrite E2, E3. split; [exact O3|]. left. split; [reflexivity|]. intros f S.
      apply (src_thr s s' t Idle E1 E4) in S; [exact (N f S)|rewrite T; discriminate|discriminate]. }
    destruct (is_send e); apply Fin; reflexivity. }
  unfold enter. destruct (e_kind e) eqn:K.
  - assert (X : negb (c_fully_ordered c) && negb (c_truly_async c) = false).
    { destruct (c_fully_ordered c), (c_truly_async c); cbn in *; auto. }
    rewrite X. destruct (waiting s) eqn:W; [apply ord_enqueue; assumption|].
    destruct (c_truly_async c); [apply ord_enqueue; assumption|auto].
  - destruct (waiting s) eqn:W; [apply ord_enqueue; assumption|].
    destruct (c_truly_async c); [apply ord_enqueue; assumption|auto].
  - destruct (waiting s) eqn:W; [apply ord_enqueue; assumption|].
    assert (Op : opened s = true).
    { destruct (opened s) eqn:Z; [reflexivity|]. destruct (v_closed _ _ I Z) as [_ [_ [_ L]]]. specialize (L t).
      rewrite T in L. destruct L as [L _]. contradiction. }
    destruct (Quiet eq_refl Op) as [Q N]. pose proof (ord_none s O N) as Oc. rewrite Q in Oc.
    exists [e]. cbn. rewrite Q. split; [apply oc_begin; assumption|]. right. exists e. split; [reflexivity|]. split.
    + right. exists t. cbn. rewrite Nat.eqb_refl. reflexivity.
    + intros f [[k X]|[u X]]; cbn in X.
      * exfalso. apply (N f). left. exists k. exact X.
      * destruct (Nat.eqb_spec u t) as [E|E]; [inversion X; reflexivity|]. exfalso. apply (N f). right. exists u. exact X.
Qed.

Lemma ord_step c l s s' : inv c s -> polite c l s -> (c_fully_ordered c || c_truly_async c = true) -> ord s ->
  step c l s = Some s' -> ord s'.
Proof.
  intros I P Od O St. destruct l; cbn [step] in St.
  - destruct (thr s t) eqn:T; try discriminate. destruct (life s) eqn:Lf; try discriminate. inversion St; subst.
    apply (ord_frame s _ O); [intros cur Oc; exact Oc|]. apply (src_thr s _ t (Checked (mkE (next s) k))); auto; [rewrite T|]; discriminate.
  - destruct (thr s t) as [|e|e|e b|e] eqn:T; try discriminate. inversion St; subst. apply ord_enter; assumption.
  - destruct (thr s t) as [|e|e|e b|e] eqn:T; try discriminate.
    destruct (transmit e ok s) as [s1 b] eqn:Tr. inversion St; subst s'; clear St.
    destruct (ord_some s e O) as [Oc U]; [right; eauto|]. apply transmit_eq in Tr.
    assert (Ng : forall f k, eng s <> ESending f k).
    { intros f k X. destruct (v_tx _ _ I t e) as [_ [_ [_ [_ Y]]]]; [rewrite T; reflexivity|]. rewrite X in Y. exact Y. }
    assert (Fin : forall s' v, eng s' = eng s -> queue s' = queue s -> log s' = v :: log s -> (v = EvWire e \/ v = EvLost e) ->
       (forall u, thr s' u = if Nat.eqb u t then Relock e b else thr s u) -> ord s').
    { intros s' v E1 E2 E3 V E4. exists []. rewrite E2, E3. split.
      - destruct V; subst v; [apply oc_wire; exact Oc|]. apply (oc_settle _ _ _ e); auto.
      - left. split; [reflexivity|]. intros f [[k X]|[u X]]; [rewrite E1 in X; exact (Ng f k X)|].
        rewrite E4 in X. destruct (Nat.eqb_spec u t) as [E|E]; [discriminate|].
        assert (f = e) by (apply U; right; eauto). subst f. apply E.
        apply (b_uniq _ (v_base _ _ I) u t (e_id e)); [rewrite X|rewrite T]; reflexivity. }
    destruct Tr as [[Eb [Op Es]]|[Eb Es]]; subst b s1.
    + apply (Fin _ (EvWire e)); destruct (is_send e); cbn; auto.
    + apply (Fin _ (EvLost e)); cbn; auto.
  - destruct (thr s t) as [|e|e|e b|e] eqn:T; try discriminate. inversion St; subst s'; clear St. unfold relock. destruct b.
    + apply (ord_frame s _ O); [intros cur Oc; exact Oc|]. apply (src_thr s _ t (WaitFor e)); auto; [rewrite T|]; discriminate.
    + assert (X : forall s1, eng s1 = eng s -> queue s1 = queue s -> log s1 = log s -> thr s1 = thr s -> ord (refuse t e s1)).
      { intros s1 E1 E2 E3 E4. apply (ord_frame s _ O).
        - intros cur Oc. cbn. rewrite E2, E3. apply oc_other; [exact Logic.I|exact Oc].
        - apply (src_thr s _ t Idle); auto; [cbn; intros; rewrite E4; reflexivity|rewrite T; discriminate|discriminate]. }
      destruct (queue s) eqn:Q; apply X; cbn; auto; unfold arm; destruct (waiting s); try destruct (c_dbg c); cbn;
        destruct (cmds s); cbn; auto.
  - destruct (thr s t) as [|e|e|e b|e] eqn:T; try discriminate. destruct (existsb (is_call e) (log s)) eqn:E; try discriminate.
    inversion St; subst. apply (ord_frame s _ O).
    + intros cur. cbn. apply oc_other. exact Logic.I.
    + apply (src_thr s _ t Idle); auto; [rewrite T|]; discriminate.
  - destruct (eng s) eqn:Eg; try discriminate. destruct (opened s) eqn:Op; try discriminate. cbn in St, P.
    assert (NT : forall t e, thr s t <> Transmit e).
    { apply (no_transmit c s I). right. left. destruct (owed s); [destruct P|discriminate]. }
    assert (Ns : forall e, ~ src s e).
    { intros e [[k X]|[t X]]; [congruence|exact (NT t e X)]. }
    pose proof (ord_none s O Ns) as Oc.
    destruct (waiting s) as [sl|] eqn:W; inversion St; subst s'; clear St.
    + apply ord_loop; cbn; assumption.
    + apply (ord_frame s _ O).
      * intros cur. unfold stop_request. cbn. destruct (life s); auto.
      * intros e. unfold stop_request, src. cbn. destruct (life s); cbn; reflexivity.
  - destruct (eng s) eqn:Eg; try discriminate. destruct (cmds s) eqn:Cm; try discriminate. inversion St; subst s'; clear St.
    assert (NT : forall t e, thr s t <> Transmit e).
    { apply (no_transmit c s I). right. right. left. rewrite Cm. discriminate. }
    assert (Ns : forall e, ~ src s e).
    { intros e [[k X]|[t X]]; [congruence|exact (NT t e X)]. }
    apply ord_loop; cbn; [exact (ord_none s O Ns)|exact NT].
  - pose proof (v_eng _ _ I) as G. unfold eng_ok in G. unfold eng_step in St.
    destruct (eng s) as [|e k|e b k|sl k|k|sl r| |sl| |e] eqn:Eg; try discriminate.
    1: { (* ESending *)
      assert (NT : forall t f, thr s t <> Transmit f) by (apply (no_transmit c s I); left; rewrite Eg; auto).
      destruct (transmit e ok s) as [s1 b] eqn:Tr. apply transmit_eq in Tr. inversion St; subst s'; clear St.
      destruct (ord_some s e O) as [Oc U]; [left; eauto|].
      assert (Fin : forall s' v g, eng s' = ESent e g k -> queue s' = queue s -> log s' = v :: log s -> (v = EvWire e \/ v = EvLost e) ->
         thr s' = thr s -> ord s').
      { intros s' v g E1 E2 E3 V E4. exists []. rewrite E2, E3. split.
        - destruct V; subst v; [apply oc_wire; exact Oc|]. apply (oc_settle _ _ _ e); auto.
        - left. split; [reflexivity|]. intros f [[k' X]|[u X]]; [rewrite E1 in X; discriminate|].
          rewrite E4 in X. exact (NT u f X). }
      destruct Tr as [[Eb [Op Es]]|[Eb Es]]; subst b s1.
      + apply (Fin _ (EvWire e) true); destruct (is_send e); cbn; auto.
      + apply (Fin _ (EvLost e) false); cbn; auto. }
    all: assert (Ns : forall f k', eng s <> ESending f k') by (intros; rewrite Eg; discriminate).
    (* states of the engine in which nobody transmits *)
    all: try (assert (NT : forall t f, thr s t <> Transmit f) by (apply (no_transmit c s I); left; rewrite Eg; auto; fail);
              assert (Nn : forall f, ~ src s f) by (intros f [[k' X]|[t X]]; [exact (Ns f k' X)|exact (NT t f X)]);
              pose proof (ord_none s O Nn) as Oc).
    + (* ESent *)
      destruct (is_send e).
      * inversion St; subst. apply ord_loop; cbn; assumption.
      * destruct b.
        { inversion St; subst. exists []. unfold finish. destruct k as [[sl r]|]; cbn; (split; [exact Oc|]); left; (split; [reflexivity|]);
            intros f [[k' X]|[t X]]; cbn in X; try discriminate; exact (NT t f X). }
        { cbn in St. destruct (waiting s); inversion St; subst; exists []; cbn; (split; [exact Oc|]); left; (split; [reflexivity|]);
            intros f [[k' X]|[t X]]; cbn in X; try discriminate; exact (NT t f X). }
    + (* ECallErr *)
      destruct G as [_ [[e Es] _]]. subst sl. inversion St; subst. exists []. cbn. split; [apply oc_other; [exact Logic.I|exact Oc]|].
      left. split; [reflexivity|]. intros f [[k' X]|[t X]]; cbn in X; try discriminate; exact (NT t f X).
    + (* ERelock *) inversion St; subst. apply ord_loop; cbn; assumption.
    + (* ECall *)
      destruct G as [[e [Es _]] _]. subst sl. inversion St; subst. apply (ord_frame s _ O).
      * intros cur. cbn. apply oc_other. exact Logic.I.
      * intros f. unfold src. cbn. rewrite Eg. split; (intros [[k' X]|X]; [discriminate|right; exact X]).
    + (* EStopTake *)
      destruct (waiting s); inversion St; subst; exists []; cbn; (split; [exact Oc|]); left; (split; [reflexivity|]);
        intros f [[k' X]|[t X]]; cbn in X; try discriminate; exact (NT t f X).
    + (* EStopCall *)
      inversion St; subst. exists []. destruct sl; cbn; (split; [try (apply oc_other; [exact Logic.I|]); exact Oc|]); left; (split; [reflexivity|]);
        intros f [[k' X]|[t X]]; cbn in X; try discriminate; exact (NT t f X).
    + (* EStopLoop *)
      destruct (queue s) as [|e q] eqn:Q; inversion St; subst; exists []; cbn.
      * rewrite Q. split; [exact Oc|]. left. split; [reflexivity|]. intros f [[k' X]|[t X]]; cbn in X; try discriminate; exact (NT t f X).
      * split; [apply oc_drop; exact Oc|]. left. split; [reflexivity|].
        intros f [[k' X]|[t X]]; cbn in X; [destruct (is_send e); discriminate|exact (NT t f X)].
    + (* EStopCallQ *)
      inversion St; subst. exists []. cbn. split; [apply oc_other; [exact Logic.I|exact Oc]|]. left. split; [reflexivity|].
      intros f [[k' X]|[t X]]; cbn in X; try discriminate; exact (NT t f X).
  - inversion St; subst. apply (ord_frame s _ O).
    + intros cur. unfold stop_request. destruct (life s); auto.
    + intros e. unfold stop_request, src. destruct (life s); cbn; reflexivity.
  - destruct (eng s) eqn:Eg; try discriminate. destruct (stopreq s); try discriminate. inversion St; subst.
    apply (ord_frame s _ O); [intros cur Oc; exact Oc|]. intros e. unfold src. cbn. rewrite Eg. split; (intros [[k' X]|X]; [discriminate|right; exact X]).
  - destruct (life s); try discriminate. inversion St; subst. apply (ord_frame s _ O); [intros cur Oc; exact Oc|]. intros e. unfold src. reflexivity.
  - destruct (eng s) eqn:Eg; try discriminate. destruct (life s); try discriminate. inversion St; subst.
    apply (ord_frame s _ O); [intros cur Oc; exact Oc|]. intros e. unfold src. cbn. rewrite Eg. reflexivity.
Qed.

Lemma ord_init c : ord (init c).
Proof.
  exists []. cbn. split.
  - exists []. cbn. split; [reflexivity|]. split; [constructor|]. split; [reflexivity|]. split; intros e [].
  - left. split; [reflexivity|]. intros e [[k X]|[t X]]; cbn in X; discriminate.
Qed.

Lemma ord_result s : ord s -> wires (log s) = filter (onw (log s)) (accs (log s)) /\ NoDup (map e_id (accs (log s))) /\
  forall e, In e (accs (log s)) -> onw (log s) e = true \/ gone (log s) e = true \/ In e (queue s) \/ src s e.
Proof.
  intros [cur [[D [A [N [W [U G]]]]] C]]. split; [|split; [exact N|]].
  - rewrite A, filter_app', W.
    assert (Z : filter (onw (log s)) (cur ++ queue s) = []).
    { clear A N W. induction (cur ++ queue s) as [|x r IH]; [reflexivity|]. cbn. rewrite (U x (or_introl eq_refl)).
      apply IH. intros e E. apply U. right. exact E. }
    rewrite Z, app_nil_r. reflexivity.
  - intros e I. rewrite A in I. apply in_app_or in I. destruct I as [I|I]; [destruct (G e I); auto|].
    apply in_app_or in I. destruct I as [I|I]; [|auto]. right. right. right.
    destruct C as [[E _]|[f [E [S _]]]]; subst cur; [destruct I|]. destruct I as [I|[]]. subst f. exact S.
Qed.
