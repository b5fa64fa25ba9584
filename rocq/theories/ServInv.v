From Verif Require Import Base OffsetPtrModel ServModel ServSpec ServProof.
Open Scope nat_scope.

Lemma life_upd e c ph l : (forall c', mine c' e = Nat.eqb c c') -> next (life c l) e = ph ->
  forall c', life c' (e :: l) = if Nat.eqb c' c then ph else life c' l.
Proof.
  intros M N c'. cbn [life]. rewrite M, (Nat.eqb_sym c c'). destruct (Nat.eqb_spec c' c) as [->|]; [exact N|reflexivity].
Qed.

Lemma alive_lt s c : IA s -> c_alive (conns s c) = true -> c < ncon s.
Proof.
  intros V A. apply (v_alive s V) in A. destruct (Nat.le_gt_cases (ncon s) c) as [H|H]; [|exact H].
  apply (v_n s V) in H. rewrite H in A. destruct A as [A|[A|A]]; discriminate.
Qed.

Lemma acc_alive s c : IA s -> L s c = PAcc -> c_alive (conns s c) = true.
Proof. intros V A. apply (v_alive s V). auto. Qed.

Lemma lt_live s c ph : IA s -> L s c = ph -> ph <> PNone -> c < ncon s.
Proof.
  intros V A N. destruct (Nat.le_gt_cases (ncon s) c) as [H|H]; [|exact H]. apply (v_n s V) in H. congruence.
Qed.

(** changes of the stack that do not touch connect and disconnect callbacks *)
Lemma IA_stack s fs : IA s ->
  (forall c, In (FConnect c) fs <-> In (FConnect c) (stack s)) ->
  (forall c, In (FDisc c) fs <-> In (FDisc c) (stack s)) ->
  busy fs = busy (stack s) ->
  (forall l i, In (FClean l i) fs -> s_stop (srv s l) = true /\ ~ In (CClean l) (cmds s) /\ (exists ds, fs = map FDisc ds ++ [FClean l i]) /\
    forall j e fd b, j < i -> nth_error (slots s) j = Some (Some (e, fd), b) -> owner s e <> l) ->
  (forall c, ~ In (FRecv c) (tl fs)) -> (forall c r, fs = FRecv c :: r -> L s c = PAcc) ->
  IA (set_stack s fs).
Proof.
  intros V A B C D E F. destruct V. constructor; cbn [set_stack slots conns ncon os srv cmds stack log]; try assumption.
  - intros c. rewrite A. apply v_prov.
  - intros c. rewrite B. apply v_disc.
  - rewrite C. exact v_busy.
  - intros l I. split; [apply v_ccl; exact I|]. intros i J. apply (D l i J). exact I.
  - intros l i I. destruct (D l i I) as (X & _ & Y & Z). auto.
Qed.

Lemma IB_stack s fs : IB s -> IB (set_stack s fs).
Proof. intros V. destruct V. constructor; assumption. Qed.
Lemma IC_stack s fs : IC s -> IC (set_stack s fs).
Proof. exact (fun V => V). Qed.

Lemma IC_tell s e : IC s -> (forall l, e <> VStopped l) -> forall s', log s' = e :: log s -> IC s'.
Proof.
  intros V N s' E a l b H. rewrite E in H. destruct a as [|x a]; cbn [app] in H.
  - injection H as H _. exfalso. eapply N. exact H.
  - injection H as -> H. apply (V a l b H).
Qed.

(** the disconnect callback starts *)
Lemma inv_disc s i c fd b : Inv s -> (forall c', ~ In (FRecv c') (stack s)) ->
  nth_error (slots s) i = Some (Some (EConn c, fd), b) ->
  Inv (tell (push (set_slots s (clear (slots s) i)) (FDisc c)) (VDisc c)) /\
  unpoll s i = Ok (tell (push (set_slots s (clear (slots s) i)) (FDisc c)) (VDisc c)).
Proof.
  intros (VA & VB & VC) NR E.
  assert (IE : In (EConn c, fd) (entries (slots s))) by (apply in_entries; eauto).
  destruct (v_ent s VA c fd IE) as (PA & ->).
  pose proof (acc_alive s c VA PA) as AL.
  assert (LU : forall c', life c' (VDisc c :: log s) = if Nat.eqb c' c then PDisc else life c' (log s)).
  { apply life_upd; [reflexivity|]. rewrite PA. reflexivity. }
  assert (CI : forall x, In x (entries (clear (slots s) i)) <-> In x (entries (slots s)) /\ fst x <> EConn c).
  { intros x. eapply clear_in; [apply (v_nd s VA)|exact E]. }
  assert (NPD : ~ In (FDisc c) (stack s)) by (intros J; apply (v_disc s VA) in J; congruence).
  assert (NPC : ~ In (FConnect c) (stack s)) by (intros J; apply (v_prov s VA) in J; congruence).
  split.
  - split; [|split].
    + constructor; cbn [tell push set_stack set_slots slots conns ncon os srv cmds stack log].
      * intros c'. rewrite LU. destruct (Nat.eqb_spec c' c) as [->|]; [|apply (v_n s VA)].
        pose proof (lt_live s c _ VA PA ltac:(discriminate)). split; [discriminate|lia].
      * intros c'. rewrite LU. destruct (Nat.eqb_spec c' c); [split; discriminate|apply (v_ok s VA)].
      * intros c' fd' J. apply CI in J. destruct J as (J & N). rewrite LU. cbn [fst] in N.
        destruct (Nat.eqb_spec c' c) as [->|]; [congruence|]. apply (v_ent s VA). exact J.
      * intros c'. rewrite LU. destruct (Nat.eqb_spec c' c); [discriminate|]. intros J. apply CI. split; [apply (v_ent2 s VA); exact J|cbn [fst]; congruence].
      * intros l fd' J. apply CI in J. apply (v_lis s VA). tauto.
      * apply clear_nd, (v_nd s VA).
      * apply clear_rev, (v_rev s VA).
      * intros c'. rewrite LU. destruct (Nat.eqb_spec c' c) as [->|].
        -- split; [discriminate|]. intros [J|J]; [discriminate|contradiction].
        -- rewrite (v_prov s VA). split; [right; assumption|]. intros [J|J]; [discriminate|exact J].
      * intros c'. rewrite LU. destruct (Nat.eqb_spec c' c) as [->|N].
        -- split; [left; reflexivity|reflexivity].
        -- rewrite (v_disc s VA). split; [right; assumption|]. intros [J|J]; [congruence|exact J].
      * cbn [busy flat_map busy1 app]. constructor; [|apply (v_busy s VA)]. intros J. apply in_busy in J. tauto.
      * intros c'. rewrite LU. destruct (Nat.eqb_spec c' c) as [->|]; [tauto|apply (v_alive s VA)].
      * intros c' A. rewrite LU. rewrite (v_accf s VA c' A). destruct (Nat.eqb_spec c' c) as [->|]; [rewrite PA; reflexivity|reflexivity].
      * apply (v_fd s VA).
      * apply (v_os s VA).
      * apply (v_srv s VA).
      * intros c' l p. rewrite <- (v_con s VA). split; [intros [J|J]; [discriminate|exact J]|right; assumption].
      * apply (v_pinj s VA).
      * apply (v_cmd s VA).
      * apply (v_creg s VA).
      * intros l J. destruct (v_ccl s VA l J) as (A & B). split; [exact A|]. intros k [K|K]; [discriminate|]. apply (B k K).
      * apply (v_stp s VA).
      * intros l k [J|J]; [discriminate|]. destruct (v_fcl s VA l k J) as (A & (ds & B) & C).
        split; [exact A|]. split; [exists (c :: ds); rewrite B; reflexivity|].
        intros j e fd' b' LT H. apply clear_nth in H. apply (C j e fd' b' LT). tauto.
      * cbn [tl]. exact NR.
      * discriminate.
    + destruct VB. constructor; cbn [tell push set_stack set_slots conns ncon peers backlog log msgs outs]; try assumption.
      intros c' LT. destruct (v_msgs c' LT) as (r & A & B). exists r. split; [exact A|]. rewrite LU.
      destruct (Nat.eqb_spec c' c); [intros [X|X]; discriminate|exact B].
    + eapply IC_tell; [exact VC| |reflexivity]. discriminate.
  - unfold unpoll. rewrite E. unfold destroy. cbn [set_slots conns]. rewrite AL. cbn [negb].
    rewrite (v_accf s VA c AL), PA. reflexivity.
Qed.

Lemma inv_unregister s c : Inv s -> (forall c', ~ In (FRecv c') (stack s)) ->
  exists s', unregister s (EConn c) = Ok s' /\ Inv s'.
Proof.
  intros V NR. unfold unregister. destruct (find_ep (slots s) (EConn c)) as [i|] eqn:F; [|exists s; auto].
  apply find_some in F. destruct F as (fd & b & F). destruct (inv_disc s i c fd b V NR F) as (A & B). eauto.
Qed.

(** ... and ends, or the connect callback rejects: the connection is gone *)
Definition tells (s : st) (pre : list event) : st :=
  mkSt (slots s) (conns s) (ncon s) (os s) (peers s) (backlog s) (srv s) (cmds s) (stack s) (pre ++ log s).

Lemma inv_gone s c r f pre : Inv s -> stack s = f :: r ->
  (f = FDisc c /\ pre = [] \/ f = FConnect c /\ pre = [VReject c]) -> Inv (finish (tells (set_stack s r) pre) c).
Proof.
  intros (VA & VB & VC) E HF.
  assert (PD : L s c = PDisc /\ pre = [] \/ L s c = PProv /\ pre = [VReject c]).
  { destruct HF as [(-> & P)|(-> & P)]; [left|right]; (split; [|exact P]).
    - apply (v_disc s VA); rewrite E; left; reflexivity.
    - apply (v_prov s VA); rewrite E; left; reflexivity. }
  assert (AL : c_alive (conns s c) = true) by (apply (v_alive s VA); destruct PD as [(P & _)|(P & _)]; auto).
  assert (LT : c < ncon s) by (apply (alive_lt s c VA AL)).
  assert (LU : forall c', life c' (VGone c :: pre ++ log s) = if Nat.eqb c' c then PGone else life c' (log s)).
  { intros c'. destruct PD as [(P & ->)|(P & ->)]; cbn [app life mine]; rewrite (Nat.eqb_sym c c');
      (destruct (Nat.eqb_spec c' c) as [->|]; [rewrite P|]; reflexivity). }
  assert (MS : forall c', msgs c' (pre ++ log s) = msgs c' (log s)) by (intros c'; destruct PD as [(_ & ->)|(_ & ->)]; reflexivity).
  assert (OU : forall c', outs c' (pre ++ log s) = outs c' (log s)) by (intros c'; destruct PD as [(_ & ->)|(_ & ->)]; reflexivity).
  assert (CN : forall c' l p, In (VConnect c' l p) (VGone c :: pre ++ log s) <-> In (VConnect c' l p) (log s)).
  { intros c' l p. destruct PD as [(_ & ->)|(_ & ->)]; cbn [app In]; intuition discriminate. }
  assert (BY : busy (f :: r) = c :: busy r) by (destruct HF as [(-> & _)|(-> & _)]; reflexivity).
  assert (NA : L s c <> PAcc) by (destruct PD as [(P & _)|(P & _)]; congruence).
  pose proof (v_busy s VA) as NB. rewrite E, BY in NB. inversion NB as [|? ? NB1 NB2]; subst.
  assert (NR : ~ In (FDisc c) r /\ ~ In (FConnect c) r).
  { split; intros J; apply NB1; apply in_busy; auto. }
  assert (CO : forall c', fupd (conns s) c (mkConn (c_srv (conns s c)) (c_peer (conns s c)) (c_fd (conns s c)) (c_acc (conns s c)) false) c' =
     if Nat.eqb c' c then mkConn (c_srv (conns s c)) (c_peer (conns s c)) (c_fd (conns s c)) (c_acc (conns s c)) false else conns s c') by reflexivity.
  assert (CF : forall c', c_fd (fupd (conns s) c (mkConn (c_srv (conns s c)) (c_peer (conns s c)) (c_fd (conns s c)) (c_acc (conns s c)) false) c') = c_fd (conns s c')).
  { intros c'. rewrite CO. destruct (Nat.eqb_spec c' c) as [->|]; reflexivity. }
  assert (CP : forall c', c_peer (fupd (conns s) c (mkConn (c_srv (conns s c)) (c_peer (conns s c)) (c_fd (conns s c)) (c_acc (conns s c)) false) c') = c_peer (conns s c')).
  { intros c'. rewrite CO. destruct (Nat.eqb_spec c' c) as [->|]; reflexivity. }
  assert (CS : forall c', c_srv (fupd (conns s) c (mkConn (c_srv (conns s c)) (c_peer (conns s c)) (c_fd (conns s c)) (c_acc (conns s c)) false) c') = c_srv (conns s c')).
  { intros c'. rewrite CO. destruct (Nat.eqb_spec c' c) as [->|]; reflexivity. }
  assert (NF : forall c', c' <> c -> c_alive (conns s c') = true -> c_fd (conns s c') <> c_fd (conns s c)).
  { intros c' N A F. pose proof (v_fd s VA c AL) as X. pose proof (v_fd s VA c' A) as Y. rewrite F, X in Y. injection Y as Y.
    apply N. apply (v_pinj s VA); [apply (alive_lt s c' VA A)|exact LT|congruence]. }
  split; [|split].
  - constructor; cbn [finish tell set_conn set_os set_stack tells slots conns ncon os srv cmds stack log].
    + intros c'. rewrite LU. destruct (Nat.eqb_spec c' c) as [->|]; [|apply (v_n s VA)]. split; [discriminate|lia].
    + intros c'. rewrite LU. destruct (Nat.eqb_spec c' c); [split; discriminate|apply (v_ok s VA)].
    + intros c' fd J. destruct (v_ent s VA c' fd J) as (A & B). rewrite LU, CF.
      destruct (Nat.eqb_spec c' c) as [->|]; [congruence|auto].
    + intros c'. rewrite LU, CF. destruct (Nat.eqb_spec c' c); [discriminate|apply (v_ent2 s VA)].
    + apply (v_lis s VA).
    + apply (v_nd s VA).
    + apply (v_rev s VA).
    + intros c'. rewrite LU. destruct (Nat.eqb_spec c' c) as [->|].
      * split; [discriminate|tauto].
      * rewrite (v_prov s VA), E. split; [intros [J|J]; [destruct HF as [(-> & _)|(-> & _)]; congruence|exact J]|right; assumption].
    + intros c'. rewrite LU. destruct (Nat.eqb_spec c' c) as [->|].
      * split; [discriminate|tauto].
      * rewrite (v_disc s VA), E. split; [intros [J|J]; [destruct HF as [(-> & _)|(-> & _)]; congruence|exact J]|right; assumption].
    + exact NB2.
    + intros c'. rewrite LU, CO. destruct (Nat.eqb_spec c' c) as [->|]; [|apply (v_alive s VA)]. cbn [c_alive].
      split; [discriminate|intros [X|[X|X]]; discriminate].
    + intros c'. rewrite LU, CO. destruct (Nat.eqb_spec c' c) as [->|]; [discriminate|apply (v_accf s VA)].
    + intros c'. rewrite CO. destruct (Nat.eqb_spec c' c) as [->|N]; [discriminate|]. intros A.
      rewrite fupd_neq; [apply (v_fd s VA); exact A|]. apply NF; assumption.
    + intros fd p. unfold fupd at 1. destruct (Nat.eqb_spec fd (c_fd (conns s c))) as [->|N]; [discriminate|]. intros J.
      destruct (v_os s VA fd p J) as (c' & A & B & C). exists c'. rewrite CF, CP, CO.
      destruct (Nat.eqb_spec c' c) as [->|]; [congruence|auto].
    + intros l fd. rewrite (v_srv s VA). unfold fupd. destruct (Nat.eqb_spec fd (c_fd (conns s c))) as [->|N]; [|reflexivity].
      rewrite (v_fd s VA c AL). split; discriminate.
    + intros c' l p. rewrite CS, CP, <- (v_con s VA). apply CN.
    + intros c1 c2. rewrite !CP. apply (v_pinj s VA).
    + apply (v_cmd s VA).
    + apply (v_creg s VA).
    + intros l J. destruct (v_ccl s VA l J) as (A & B). split; [exact A|]. intros i K. apply (B i). rewrite E. right. exact K.
    + apply (v_stp s VA).
    + intros l i J. destruct (v_fcl s VA l i) as (A & (ds & B) & C); [rewrite E; right; exact J|].
      split; [exact A|]. split.
      * destruct ds as [|d ds]; cbn [map app] in B; rewrite E in B.
        -- injection B as B1 B2. subst r. destruct J.
        -- injection B as _ B. exists ds. exact B.
      * intros j e fd b LJ H. specialize (C j e fd b LJ H). destruct e as [l'|c']; [exact C|].
        unfold owner in *. cbn [conns set_conn set_os set_stack tell tells finish]. rewrite CS. exact C.
    + intros c' J. apply (v_recv s VA c'). rewrite E. cbn [tl]. destruct r as [|g r']; [destruct J|right; exact J].
    + intros c' r' J. exfalso. apply (v_recv s VA c'). rewrite E, J. left. reflexivity.
  - destruct VB. constructor; cbn [finish tell tells set_conn set_os set_stack conns ncon peers backlog log msgs outs].
    + intros c'. rewrite CP. apply v_used.
    + intros l p J. destruct (v_bk l p J) as (A & B & C & D). split; [exact A|]. split; [exact B|]. split; [exact C|].
      intros c'. rewrite CP. apply D.
    + exact v_bk2.
    + exact v_bk3.
    + intros c' LC. rewrite CP, MS. destruct (v_msgs c' LC) as (x & A & B). exists x. split; [exact A|]. rewrite LU.
      destruct (Nat.eqb_spec c' c); [intros [X|X]; discriminate|exact B].
    + intros c'. rewrite CP, OU. apply v_outs.
  - destruct PD as [(_ & ->)|(_ & ->)].
    + eapply IC_tell; [exact VC| |reflexivity]. discriminate.
    + apply (IC_tell (tell s (VReject c)) (VGone c)); [|discriminate|reflexivity].
      eapply IC_tell; [exact VC| |reflexivity]. discriminate.
Qed.
