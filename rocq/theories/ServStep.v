From Verif Require Import Base OffsetPtrModel ServModel ServSpec ServProof ServInv.
Open Scope nat_scope.

Lemma no_clean s f r : IA s -> stack s = f :: r -> (forall l i, f <> FClean l i) -> (forall c, f <> FDisc c) ->
  forall l i, ~ In (FClean l i) (stack s).
Proof.
  intros V E N1 N2 l i J. destruct (v_fcl s V l i J) as (_ & (ds & B) & _). rewrite E in B.
  destruct ds as [|d ds]; cbn [map app] in B; injection B as B _; [eapply N1|eapply N2]; exact B.
Qed.

Lemma no_recv s f r : IA s -> stack s = f :: r -> (forall c, f <> FRecv c) -> forall c, ~ In (FRecv c) (stack s).
Proof.
  intros V E N c J. rewrite E in J. destruct J as [J|J]; [eapply N; exact J|]. apply (v_recv s V c). rewrite E. exact J.
Qed.

(** events that leave all phases as they are *)
Lemma IA_tell s e : IA s -> (forall c, life c (e :: log s) = life c (log s)) -> (forall c l p, e <> VConnect c l p) -> IA (tell s e).
Proof.
  intros V LU NC. constructor; cbn [tell slots conns ncon os srv cmds stack log]; try (intros c; rewrite LU); try intros c.
  - apply (v_n s V).
  - apply (v_ok s V).
  - apply (v_ent s V).
  - apply (v_ent2 s V).
  - apply (v_lis s V).
  - apply (v_nd s V).
  - apply (v_rev s V).
  - apply (v_prov s V).
  - apply (v_disc s V).
  - apply (v_busy s V).
  - apply (v_alive s V).
  - apply (v_accf s V).
  - apply (v_fd s V).
  - apply (v_os s V).
  - apply (v_srv s V).
  - intros l p. rewrite <- (v_con s V). split; [intros [J|J]; [exfalso; eapply NC; exact J|exact J]|right; assumption].
  - apply (v_pinj s V).
  - apply (v_cmd s V).
  - apply (v_creg s V).
  - apply (v_ccl s V).
  - apply (v_stp s V).
  - apply (v_fcl s V).
  - apply (v_recv s V).
  - apply (v_recv2 s V).
Qed.

Lemma IA_peer s p x : IA s -> IA (set_peer s p x).
Proof. intros V. destruct V. constructor; assumption. Qed.
Lemma IA_backlog s l x : IA s -> IA (set_backlog s l x).
Proof. intros V. destruct V. constructor; assumption. Qed.

(** changes of clients *)
Lemma IB_peer s p x : IA s -> IB s -> p_used x = true ->
  (forall l, In p (backlog s l) -> p_in x = p_sent x /\ p_out x = []) ->
  (forall c, c < ncon s -> c_peer (conns s c) = p ->
     p_out x = outs c (log s) /\ exists r, p_sent x = msgs c (log s) ++ r /\ (L s c = PProv \/ L s c = PAcc -> r = p_in x)) ->
  IB (set_peer s p x).
Proof.
  intros VA V U HB HC. constructor; cbn [set_peer peers conns ncon backlog log].
  - intros c LT. unfold fupd. destruct (Nat.eqb_spec (c_peer (conns s c)) p); [exact U|]. apply (v_used s V). exact LT.
  - intros l q J. destruct (v_bk s V l q J) as (A & B & C & D). unfold fupd. destruct (Nat.eqb_spec q p) as [->|].
    + split; [exact U|]. destruct (HB l J). auto.
    + auto.
  - apply (v_bk2 s V).
  - apply (v_bk3 s V).
  - intros c LT. unfold fupd. destruct (Nat.eqb_spec (c_peer (conns s c)) p) as [E|].
    + destruct (HC c LT E) as (_ & H). exact H.
    + apply (v_msgs s V). exact LT.
  - intros c LT. unfold fupd. destruct (Nat.eqb_spec (c_peer (conns s c)) p) as [E|].
    + destruct (HC c LT E) as (H & _). exact H.
    + apply (v_outs s V). exact LT.
Qed.

Lemma unpoll_eq s i c fd b : nth_error (slots s) i = Some (Some (EConn c, fd), b) ->
  c_alive (conns s c) = true -> c_acc (conns s c) = true ->
  unpoll s i = Ok (tell (push (set_slots s (clear (slots s) i)) (FDisc c)) (VDisc c)).
Proof. intros E A B. unfold unpoll. rewrite E. unfold destroy. cbn [set_slots conns]. rewrite A, B. reflexivity. Qed.

Lemma acc_find s c : IA s -> L s c = PAcc -> exists i fd b, find_ep (slots s) (EConn c) = Some i /\
  nth_error (slots s) i = Some (Some (EConn c, fd), b) /\ c_alive (conns s c) = true /\ c_acc (conns s c) = true.
Proof.
  intros V P. pose proof (v_ent2 s V c P) as J. destruct (find_ep (slots s) (EConn c)) as [i|] eqn:F.
  - destruct (find_some _ _ _ F) as (fd & b & H). exists i, fd, b. split; [reflexivity|]. split; [exact H|].
    pose proof (acc_alive s c V P) as A. split; [exact A|]. rewrite (v_accf s V c A), P. reflexivity.
  - exfalso. apply (find_none _ _ F). apply in_eps. eauto.
Qed.

(** a connection whose input ended or was bad *)
Lemma inv_drop s c p x r : Inv s -> (forall c', ~ In (FRecv c') (stack s)) -> L s c = PAcc -> c_peer (conns s c) = p ->
  p_in (peers s p) = r ->
  x = mkPeer (p_used (peers s p)) (tl r) (p_sent (peers s p)) (p_part (peers s p)) (p_open (peers s p)) (p_out (peers s p)) ->
  exists s', unregister (set_peer s p x) (EConn c) = Ok s' /\ Inv s'.
Proof.
  intros V NR PA EP ER EX. pose proof V as (VA & VB & VC).
  destruct (acc_find s c VA PA) as (i & fd & b & F & N & AL & AC).
  destruct (inv_disc s i c fd b V NR N) as ((WA & WB & WC) & _).
  exists (set_peer (tell (push (set_slots s (clear (slots s) i)) (FDisc c)) (VDisc c)) p x). split.
  - unfold unregister. cbn [set_peer slots]. rewrite F. rewrite (unpoll_eq (set_peer s p x) i c fd b N AL AC). reflexivity.
  - assert (LT : c < ncon s) by (eapply alive_lt; eassumption).
    split; [apply IA_peer; exact WA|]. split; [|exact WC].
    apply IB_peer; [exact WA|exact WB| | |]; cbn [tell push set_stack set_slots backlog ncon conns log].
    + subst x. cbn [p_used]. rewrite <- EP. apply (v_used s VB). exact LT.
    + intros l J. exfalso. destruct (v_bk s VB l p J) as (_ & _ & _ & D). apply (D c LT EP).
    + intros c' LT' E'. assert (c' = c) by (apply (v_pinj s VA); congruence). subst c'. subst x. cbn [p_out p_sent p_in].
      split; [rewrite <- EP; apply (v_outs s VB); exact LT|].
      destruct (v_msgs s VB c LT) as (y & A & _). rewrite EP in A. exists y. split; [exact A|].
      cbn [life mine]. rewrite Nat.eqb_refl, PA. cbn [next]. intros [X|X]; discriminate.
Qed.

(** a message is handed to the user *)
Lemma inv_msg s c p it r : Inv s -> (forall c', ~ In (FRecv c') (stack s)) -> (forall l i, ~ In (FClean l i) (stack s)) ->
  L s c = PAcc -> c_peer (conns s c) = p -> p_in (peers s p) = it :: r ->
  Inv (tell (push (set_peer s p (mkPeer (p_used (peers s p)) r (p_sent (peers s p)) (p_part (peers s p)) (p_open (peers s p)) (p_out (peers s p))))
        (FMsg c)) (VMsg c it)).
Proof.
  intros (VA & VB & VC) NR NC PA EP ER.
  assert (LT : c < ncon s) by (eapply lt_live; [exact VA|exact PA|discriminate]).
  assert (LU : forall c', life c' (VMsg c it :: log s) = life c' (log s)).
  { intros c'. cbn [life mine]. destruct (Nat.eqb_spec c c') as [<-|]; [rewrite PA|]; reflexivity. }
  split; [|split].
  - apply IA_tell; [|exact LU|discriminate]. apply IA_stack; cbn [set_peer stack slots srv cmds log].
    + apply IA_peer. exact VA.
    + intros c'. cbn [In]. intuition discriminate.
    + intros c'. cbn [In]. intuition discriminate.
    + reflexivity.
    + intros l i [J|J]; [discriminate|]. exfalso. apply (NC l i J).
    + cbn [tl]. exact NR.
    + discriminate.
  - constructor; cbn [tell push set_stack set_peer peers conns ncon backlog log].
    + intros c' LT'. unfold fupd. destruct (Nat.eqb_spec (c_peer (conns s c')) p) as [E|]; [|apply (v_used s VB); exact LT'].
      cbn [p_used]. rewrite <- E. apply (v_used s VB). exact LT'.
    + intros l q J. destruct (v_bk s VB l q J) as (A & B & C & D). unfold fupd. destruct (Nat.eqb_spec q p) as [->|]; [|auto].
      exfalso. apply (D c LT EP).
    + apply (v_bk2 s VB).
    + apply (v_bk3 s VB).
    + intros c' LT'. rewrite LU. unfold fupd. cbn [msgs]. destruct (Nat.eqb_spec (c_peer (conns s c')) p) as [E|N].
      * assert (c' = c) by (apply (v_pinj s VA); congruence). subst c'. rewrite Nat.eqb_refl. cbn [p_sent p_in].
        destruct (v_msgs s VB c LT) as (y & A & B). rewrite EP in A, B. specialize (B (or_intror PA)). subst y. rewrite ER in A.
        exists r. split; [rewrite A, <- app_assoc; reflexivity|reflexivity].
      * destruct (Nat.eqb_spec c c') as [<-|]; [contradiction|]. apply (v_msgs s VB). exact LT'.
    + intros c' LT'. unfold fupd. cbn [outs]. destruct (Nat.eqb_spec (c_peer (conns s c')) p) as [E|N]; [|apply (v_outs s VB); exact LT'].
      cbn [p_out]. rewrite <- E. apply (v_outs s VB). exact LT'.
  - eapply IC_tell; [exact VC| |reflexivity]. discriminate.
Qed.

(** something is sent *)
Lemma inv_out s c p m : Inv s -> usable s c -> c_peer (conns s c) = p ->
  Inv (tell (set_peer s p (mkPeer (p_used (peers s p)) (p_in (peers s p)) (p_sent (peers s p)) (p_part (peers s p)) (p_open (peers s p)) (p_out (peers s p) ++ [m])))
        (VOut c m)).
Proof.
  intros (VA & VB & VC) US EP.
  assert (LT : c < ncon s).
  { destruct US as [P|P]; (eapply lt_live; [exact VA|exact P|discriminate]). }
  assert (LU : forall c', life c' (VOut c m :: log s) = life c' (log s)).
  { intros c'. cbn [life mine]. destruct (Nat.eqb_spec c c') as [<-|]; [destruct US as [P|P]; rewrite P|]; reflexivity. }
  split; [|split].
  - apply IA_tell; [|exact LU|discriminate]. apply IA_peer. exact VA.
  - constructor; cbn [tell push set_stack set_peer peers conns ncon backlog log].
    + intros c' LT'. unfold fupd. destruct (Nat.eqb_spec (c_peer (conns s c')) p) as [E|]; [|apply (v_used s VB); exact LT'].
      cbn [p_used]. rewrite <- E. apply (v_used s VB). exact LT'.
    + intros l q J. destruct (v_bk s VB l q J) as (A & B & C & D). unfold fupd. destruct (Nat.eqb_spec q p) as [->|]; [|auto].
      exfalso. apply (D c LT EP).
    + apply (v_bk2 s VB).
    + apply (v_bk3 s VB).
    + intros c' LT'. rewrite LU. unfold fupd. cbn [msgs]. destruct (Nat.eqb_spec (c_peer (conns s c')) p) as [E|N].
      * cbn [p_sent p_in]. rewrite <- E. apply (v_msgs s VB). exact LT'.
      * apply (v_msgs s VB). exact LT'.
    + intros c' LT'. unfold fupd. cbn [outs]. destruct (Nat.eqb_spec (c_peer (conns s c')) p) as [E|N].
      * assert (c' = c) by (apply (v_pinj s VA); congruence). subst c'. rewrite Nat.eqb_refl. cbn [p_out].
        rewrite <- EP. rewrite (v_outs s VB c LT). reflexivity.
      * destruct (Nat.eqb_spec c c') as [<-|]; [contradiction|]. apply (v_outs s VB). exact LT'.
  - eapply IC_tell; [exact VC| |reflexivity]. discriminate.
Qed.

Lemma inv_input s c : Inv s -> (forall c', ~ In (FRecv c') (stack s)) -> (forall l i, ~ In (FClean l i) (stack s)) ->
  L s c = PAcc -> exists s', input s c = Ok s' /\ Inv s'.
Proof.
  intros V NR NC PA. pose proof V as (VA & VB & VC). pose proof (acc_alive s c VA PA) as AL.
  unfold input. rewrite AL. cbn [negb]. rewrite (v_fd s VA c AL).
  destruct (p_in (peers s (c_peer (conns s c)))) as [|it r] eqn:EI.
  - destruct (p_open (peers s (c_peer (conns s c)))).
    + eexists. split; [reflexivity|]. split; [|split; [apply IB_stack; exact VB|exact VC]].
      apply IA_stack; try assumption.
      * intros c'. cbn [In]. intuition discriminate.
      * intros c'. cbn [In]. intuition discriminate.
      * reflexivity.
      * intros l i [J|J]; [discriminate|]. exfalso. apply (NC l i J).
      * intros c' r' [= -> _]. exact PA.
    + apply inv_unregister; assumption.
  - destruct it as [m|m|].
    + eexists. split; [reflexivity|]. apply inv_msg; auto.
    + eexists. split; [reflexivity|]. apply inv_msg; auto.
    + eapply inv_drop; try eassumption; reflexivity.
Qed.

(** a new connection *)
Lemma inv_connect s l p rb fd : Inv s -> (forall c', ~ In (FRecv c') (stack s)) -> (forall l i, ~ In (FClean l i) (stack s)) ->
  backlog s l = p :: rb -> os s fd = None ->
  Inv (tell (mkSt (slots s) (fupd (conns s) (ncon s) (mkConn l p fd false true)) (S (ncon s))
         (fupd (os s) fd (Some (SStream p))) (peers s) (fupd (backlog s) l rb) (srv s) (cmds s)
         (FConnect (ncon s) :: stack s) (log s)) (VConnect (ncon s) l p)).
Proof.
  intros (VA & VB & VC) NR NC EB EO. set (c := ncon s) in *.
  assert (PN : L s c = PNone) by (apply (v_n s VA); unfold c; lia).
  assert (LU : forall c', life c' (VConnect c l p :: log s) = if Nat.eqb c' c then PProv else life c' (log s)).
  { apply life_upd; [reflexivity|]. rewrite PN. reflexivity. }
  assert (CO : forall c', fupd (conns s) c (mkConn l p fd false true) c' = if Nat.eqb c' c then mkConn l p fd false true else conns s c') by reflexivity.
  assert (NA : c_alive (conns s c) = false).
  { destruct (c_alive (conns s c)) eqn:A; [|reflexivity]. apply (v_alive s VA) in A. rewrite PN in A. destruct A as [A|[A|A]]; discriminate. }
  assert (IB0 : In p (backlog s l)) by (rewrite EB; left; reflexivity).
  destruct (v_bk s VB l p IB0) as (U & IS & OU & NP).
  assert (NBC : ~ In (FConnect c) (stack s) /\ ~ In (FDisc c) (stack s)).
  { split; intros J; [apply (v_prov s VA) in J|apply (v_disc s VA) in J]; congruence. }
  assert (MC : msgs c (log s) = [] /\ outs c (log s) = []).
  { clear -PN. induction (log s) as [|e r IH]; [auto|].
    assert (ME : mine c e = false).
    { cbn [life] in PN. destruct (mine c e); [|reflexivity]. destruct (life c r), e; discriminate. }
    rewrite life_other in PN by exact ME. destruct (IH PN) as (A & B).
    destruct e; cbn [msgs outs mine] in *; try rewrite ME; auto. }
  split; [|split].
  - constructor; cbn [tell slots conns ncon os srv cmds stack log].
    + intros c'. rewrite LU. destruct (Nat.eqb_spec c' c) as [->|N]; [split; [discriminate|unfold c; lia]|].
      rewrite (v_n s VA). fold c. lia.
    + intros c'. rewrite LU. destruct (Nat.eqb_spec c' c); [split; discriminate|apply (v_ok s VA)].
    + intros c' fd' J. destruct (v_ent s VA c' fd' J) as (A & B). rewrite LU, CO.
      destruct (Nat.eqb_spec c' c) as [->|]; [congruence|auto].
    + intros c'. rewrite LU, CO. destruct (Nat.eqb_spec c' c); [discriminate|apply (v_ent2 s VA)].
    + apply (v_lis s VA).
    + apply (v_nd s VA).
    + apply (v_rev s VA).
    + intros c'. rewrite LU. destruct (Nat.eqb_spec c' c) as [->|N].
      * split; [left; reflexivity|reflexivity].
      * rewrite (v_prov s VA). split; [right; assumption|]. intros [J|J]; [congruence|exact J].
    + intros c'. rewrite LU. destruct (Nat.eqb_spec c' c) as [->|N].
      * split; [discriminate|]. intros [J|J]; [discriminate|tauto].
      * rewrite (v_disc s VA). split; [right; assumption|]. intros [J|J]; [congruence|exact J].
    + cbn [busy flat_map busy1 app]. constructor; [|apply (v_busy s VA)]. intros J. apply in_busy in J. tauto.
    + intros c'. rewrite LU, CO. destruct (Nat.eqb_spec c' c) as [->|]; [cbn [c_alive]; tauto|apply (v_alive s VA)].
    + intros c'. rewrite LU, CO. destruct (Nat.eqb_spec c' c) as [->|]; [reflexivity|apply (v_accf s VA)].
    + intros c'. rewrite CO. destruct (Nat.eqb_spec c' c) as [->|]; cbn [c_alive c_fd c_peer]; intros A.
      * apply fupd_eq.
      * pose proof (v_fd s VA c' A) as F. unfold fupd. destruct (Nat.eqb_spec (c_fd (conns s c')) fd); [congruence|exact F].
    + intros fd' p'. unfold fupd at 1. destruct (Nat.eqb_spec fd' fd) as [->|].
      * intros [= <-]. exists c. rewrite CO, Nat.eqb_refl. auto.
      * intros J. destruct (v_os s VA fd' p' J) as (c' & A & B & C). exists c'. rewrite CO.
        destruct (Nat.eqb_spec c' c) as [->|]; [congruence|auto].
    + intros l' fd'. rewrite (v_srv s VA). unfold fupd. destruct (Nat.eqb_spec fd' fd) as [->|]; [|reflexivity].
      rewrite EO. split; discriminate.
    + intros c' l' p'. rewrite CO. split.
      * intros [J|J].
        -- injection J as <- <- <-. rewrite Nat.eqb_refl. unfold c. auto.
        -- apply (v_con s VA) in J. fold c in J. destruct (Nat.eqb_spec c' c); [lia|]. destruct J as (A & B). split; [lia|exact B].
      * destruct (Nat.eqb_spec c' c) as [->|]; intros (A & B & C).
        -- left. cbn [c_srv c_peer] in *. congruence.
        -- right. apply (v_con s VA). fold c. split; [lia|auto].
    + intros c1 c2. rewrite !CO. destruct (Nat.eqb_spec c1 c) as [->|], (Nat.eqb_spec c2 c) as [->|]; cbn [c_peer]; intros L1 L2 EQ; auto.
      * exfalso. apply (NP c2); [fold c; lia|congruence].
      * exfalso. apply (NP c1); [fold c; lia|congruence].
      * apply (v_pinj s VA); fold c; lia.
    + apply (v_cmd s VA).
    + apply (v_creg s VA).
    + intros l' J. destruct (v_ccl s VA l' J) as (A & B). split; [exact A|]. intros k [K|K]; [discriminate|]. apply (B k K).
    + apply (v_stp s VA).
    + intros l' k [J|J]; [discriminate|]. exfalso. apply (NC l' k J).
    + cbn [tl]. exact NR.
    + discriminate.
  - constructor; cbn [tell conns ncon peers backlog log].
    + intros c' LT. rewrite CO. destruct (Nat.eqb_spec c' c) as [->|]; [exact U|]. apply (v_used s VB). fold c. lia.
    + intros l' q. unfold fupd at 1. destruct (Nat.eqb_spec l' l) as [->|NL]; intros J.
      * assert (J' : In q (backlog s l)) by (rewrite EB; right; exact J). destruct (v_bk s VB l q J') as (A & B & C & D).
        split; [exact A|]. split; [exact B|]. split; [exact C|]. intros c' LT. rewrite CO.
        destruct (Nat.eqb_spec c' c); [|apply D; fold c; lia]. cbn [c_peer]. intros ->.
        pose proof (v_bk2 s VB l) as ND. rewrite EB in ND. inversion ND; contradiction.
      * destruct (v_bk s VB l' q J) as (A & B & C & D).
        split; [exact A|]. split; [exact B|]. split; [exact C|]. intros c' LT. rewrite CO.
        destruct (Nat.eqb_spec c' c); [|apply D; fold c; lia]. cbn [c_peer]. intros ->. apply NL. eapply (v_bk3 s VB); eassumption.
    + intros l'. unfold fupd. destruct (Nat.eqb_spec l' l) as [->|]; [|apply (v_bk2 s VB)].
      pose proof (v_bk2 s VB l) as ND. rewrite EB in ND. inversion ND; assumption.
    + intros l1 l2 q. unfold fupd.
      destruct (Nat.eqb_spec l1 l) as [->|], (Nat.eqb_spec l2 l) as [->|]; intros A B; auto.
      * apply (v_bk3 s VB l l2 q); [rewrite EB; right; exact A|exact B].
      * apply (v_bk3 s VB l1 l q); [exact A|rewrite EB; right; exact B].
      * eapply (v_bk3 s VB); eassumption.
    + intros c' LT. rewrite LU, CO. cbn [msgs]. destruct (Nat.eqb_spec c' c) as [->|].
      * cbn [c_peer]. exists (p_sent (peers s p)). rewrite (proj1 MC). split; [reflexivity|]. intros _. symmetry. exact IS.
      * apply (v_msgs s VB). fold c. lia.
    + intros c' LT. rewrite CO. cbn [outs]. destruct (Nat.eqb_spec c' c) as [->|].
      * cbn [c_peer]. rewrite (proj2 MC). exact OU.
      * apply (v_outs s VB). fold c. lia.
  - eapply IC_tell; [exact VC| |reflexivity]. discriminate.
Qed.

(** it is accepted *)
Lemma inv_accept s c r : Inv s -> stack s = FConnect c :: r ->
  Inv (tell (set_slots (set_conn (set_stack s r) c
         (mkConn (c_srv (conns s c)) (c_peer (conns s c)) (c_fd (conns s c)) true (c_alive (conns s c))))
         (register (slots s) (EConn c) (c_fd (conns s c)))) (VAccept c)).
Proof.
  intros (VA & VB & VC) E. set (k := mkConn (c_srv (conns s c)) (c_peer (conns s c)) (c_fd (conns s c)) true (c_alive (conns s c))).
  assert (PP : L s c = PProv) by (apply (v_prov s VA); rewrite E; left; reflexivity).
  assert (AL : c_alive (conns s c) = true) by (apply (v_alive s VA); auto).
  assert (LT : c < ncon s) by (apply (alive_lt s c VA AL)).
  assert (LU : forall c', life c' (VAccept c :: log s) = if Nat.eqb c' c then PAcc else life c' (log s)).
  { apply life_upd; [reflexivity|]. rewrite PP. reflexivity. }
  assert (CO : forall c', fupd (conns s) c k c' = if Nat.eqb c' c then k else conns s c') by reflexivity.
  assert (CF : forall c', c_fd (fupd (conns s) c k c') = c_fd (conns s c')).
  { intros c'. rewrite CO. destruct (Nat.eqb_spec c' c) as [->|]; reflexivity. }
  assert (CP : forall c', c_peer (fupd (conns s) c k c') = c_peer (conns s c')).
  { intros c'. rewrite CO. destruct (Nat.eqb_spec c' c) as [->|]; reflexivity. }
  assert (CS : forall c', c_srv (fupd (conns s) c k c') = c_srv (conns s c')).
  { intros c'. rewrite CO. destruct (Nat.eqb_spec c' c) as [->|]; reflexivity. }
  assert (CA : forall c', c_alive (fupd (conns s) c k c') = c_alive (conns s c')).
  { intros c'. rewrite CO. destruct (Nat.eqb_spec c' c) as [->|]; reflexivity. }
  pose proof (v_busy s VA) as NB. rewrite E in NB. cbn [busy flat_map busy1 app] in NB. inversion NB as [|? ? NB1 NB2]; subst.
  assert (NBr : ~ In (FConnect c) r /\ ~ In (FDisc c) r) by (split; intros J; apply NB1; apply in_busy; auto).
  pose proof (no_clean s _ r VA E ltac:(discriminate) ltac:(discriminate)) as NC.
  assert (NCr : forall l i, ~ In (FClean l i) r) by (intros l i J; apply (NC l i); rewrite E; right; exact J).
  assert (NE : ~ In (EConn c) (eps (slots s))).
  { intros J. apply in_eps in J. destruct J as (fd & J). destruct (v_ent s VA c fd J). congruence. }
  split; [|split].
  - constructor; cbn [tell set_slots set_conn set_stack slots conns ncon os srv cmds stack log].
    + intros c'. rewrite LU. destruct (Nat.eqb_spec c' c) as [->|]; [|apply (v_n s VA)]. split; [discriminate|lia].
    + intros c'. rewrite LU. destruct (Nat.eqb_spec c' c); [split; discriminate|apply (v_ok s VA)].
    + intros c' fd J. apply register_in in J. rewrite LU, CF. destruct J as [J|J].
      * injection J as -> ->. rewrite Nat.eqb_refl. auto.
      * destruct (v_ent s VA c' fd J) as (A & B). destruct (Nat.eqb_spec c' c); auto.
    + intros c'. rewrite LU, CF, register_in. destruct (Nat.eqb_spec c' c) as [->|]; [auto|]. intros J. right. apply (v_ent2 s VA). exact J.
    + intros l fd J. apply register_in in J. destruct J as [J|J]; [discriminate|]. apply (v_lis s VA). exact J.
    + apply register_nd; [apply (v_nd s VA)|exact NE].
    + apply register_rev, (v_rev s VA).
    + intros c'. rewrite LU. destruct (Nat.eqb_spec c' c) as [->|N].
      * split; [discriminate|tauto].
      * rewrite (v_prov s VA), E. split; [intros [J|J]; [congruence|exact J]|right; assumption].
    + intros c'. rewrite LU. destruct (Nat.eqb_spec c' c) as [->|N].
      * split; [discriminate|tauto].
      * rewrite (v_disc s VA), E. split; [intros [J|J]; [congruence|exact J]|right; assumption].
    + exact NB2.
    + intros c'. rewrite LU, CA. destruct (Nat.eqb_spec c' c) as [->|]; [tauto|apply (v_alive s VA)].
    + intros c'. rewrite LU, CA, CO. destruct (Nat.eqb_spec c' c) as [->|]; [reflexivity|apply (v_accf s VA)].
    + intros c'. rewrite CA, CF, CP. apply (v_fd s VA).
    + intros fd p J. destruct (v_os s VA fd p J) as (c' & H). exists c'. rewrite CA, CF, CP. exact H.
    + apply (v_srv s VA).
    + intros c' l p. rewrite CS, CP, <- (v_con s VA). split; [intros [J|J]; [discriminate|exact J]|right; assumption].
    + intros c1 c2. rewrite !CP. apply (v_pinj s VA).
    + apply (v_cmd s VA).
    + apply (v_creg s VA).
    + intros l J. destruct (v_ccl s VA l J) as (A & B). split; [exact A|]. intros i K. apply (B i). rewrite E. right. exact K.
    + apply (v_stp s VA).
    + intros l i J. exfalso. apply (NCr l i J).
    + intros c' J. apply (v_recv s VA c'). rewrite E. cbn [tl]. destruct r as [|g r']; [destruct J|right; exact J].
    + intros c' r' J. exfalso. apply (v_recv s VA c'). rewrite E, J. left. reflexivity.
  - destruct VB. constructor; cbn [tell set_slots set_conn set_stack conns ncon peers backlog log msgs outs].
    + intros c'. rewrite CP. apply v_used.
    + intros l p J. destruct (v_bk l p J) as (A & B & C & D). split; [exact A|]. split; [exact B|]. split; [exact C|].
      intros c'. rewrite CP. apply D.
    + exact v_bk2.
    + exact v_bk3.
    + intros c' LC. rewrite CP. destruct (v_msgs c' LC) as (x & A & B). exists x. split; [exact A|]. rewrite LU.
      destruct (Nat.eqb_spec c' c) as [->|]; [intros _; apply B; auto|exact B].
    + intros c'. rewrite CP. apply v_outs.
  - eapply IC_tell; [exact VC| |reflexivity]. discriminate.
Qed.
