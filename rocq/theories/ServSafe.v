From Verif Require Import Base OffsetPtrModel ServModel ServSpec ServProof ServInv ServStep.
Open Scope nat_scope.

(** StartListening *)
Lemma inv_listen s l fd : Inv s -> s_fd (srv s l) = None -> os s fd = None ->
  Inv (set_cmds (set_srv (set_os s (fupd (os s) fd (Some (SListen l)))) l (mkSrv (Some fd) false)) (cmds s ++ [CReg l])).
Proof.
  intros (VA & VB & VC) EN EO.
  assert (NST : s_stop (srv s l) <> true) by (intros X; apply (v_stp s VA l X); exact EN).
  assert (NCR : ~ In (CReg l) (cmds s)) by (intros X; apply (v_creg s VA l X); exact EN).
  split; [|split; [destruct VB; constructor; assumption|exact VC]].
  constructor; cbn [set_cmds set_srv set_os slots conns ncon os srv cmds stack log].
  - apply (v_n s VA).
  - apply (v_ok s VA).
  - apply (v_ent s VA).
  - apply (v_ent2 s VA).
  - intros l' fd' J. destruct (v_lis s VA l' fd' J) as (A & B). unfold fupd. destruct (Nat.eqb_spec l' l) as [->|]; [congruence|].
    split; [exact A|]. intros K. apply in_app_or in K. destruct K as [K|[K|[]]]; [contradiction|congruence].
  - apply (v_nd s VA).
  - apply (v_rev s VA).
  - apply (v_prov s VA).
  - apply (v_disc s VA).
  - apply (v_busy s VA).
  - apply (v_alive s VA).
  - apply (v_accf s VA).
  - intros c A. pose proof (v_fd s VA c A) as F. unfold fupd. destruct (Nat.eqb_spec (c_fd (conns s c)) fd); [congruence|exact F].
  - intros fd' p. unfold fupd. destruct (Nat.eqb_spec fd' fd); [discriminate|apply (v_os s VA)].
  - intros l' fd'. unfold fupd. destruct (Nat.eqb_spec l' l) as [->|N], (Nat.eqb_spec fd' fd) as [->|M]; cbn [s_fd].
    + split; reflexivity.
    + split; [congruence|]. intros J. apply (v_srv s VA) in J. congruence.
    + rewrite (v_srv s VA), EO. split; [discriminate|congruence].
    + apply (v_srv s VA).
  - apply (v_con s VA).
  - apply (v_pinj s VA).
  - assert (X : forall (a : list cmd) x, NoDup a -> ~ In x a -> NoDup (a ++ [x])).
    { induction a as [|y a IH]; intros x N I; cbn [app]; [repeat constructor; intros []|].
      inversion N as [|? ? N1 N2]; subst. constructor.
      - intros J. apply in_app_or in J. destruct J as [J|[J|[]]]; [contradiction|]. apply I. left. congruence.
      - apply IH; [exact N2|]. intros J. apply I. right. exact J. }
    apply X; [apply (v_cmd s VA)|exact NCR].
  - intros l' J. unfold fupd. destruct (Nat.eqb_spec l' l) as [->|]; [discriminate|]. apply in_app_or in J.
    destruct J as [J|[J|[]]]; [apply (v_creg s VA); exact J|congruence].
  - intros l' J. apply in_app_or in J. destruct J as [J|[J|[]]]; [|discriminate]. destruct (v_ccl s VA l' J) as (A & B).
    unfold fupd. destruct (Nat.eqb_spec l' l) as [->|]; [contradiction|auto].
  - intros l'. unfold fupd. destruct (Nat.eqb_spec l' l) as [->|]; [discriminate|apply (v_stp s VA)].
  - intros l' i J. destruct (v_fcl s VA l' i J) as (A & B). unfold fupd. destruct (Nat.eqb_spec l' l) as [->|]; [contradiction|auto].
  - apply (v_recv s VA).
  - apply (v_recv2 s VA).
Qed.

(** StopListening starts *)
Lemma inv_stop s l fd : Inv s -> s_fd (srv s l) = Some fd -> s_stop (srv s l) = false ->
  Inv (set_cmds (set_srv s l (mkSrv (Some fd) true)) (cmds s ++ [CClean l])).
Proof.
  intros (VA & VB & VC) EN EO.
  assert (SF : forall l', s_fd (fupd (srv s) l (mkSrv (Some fd) true) l') = s_fd (srv s l')).
  { intros l'. unfold fupd. destruct (Nat.eqb_spec l' l) as [->|]; [symmetry; exact EN|reflexivity]. }
  assert (NCC : ~ In (CClean l) (cmds s)) by (intros X; apply (v_ccl s VA) in X; destruct X; congruence).
  split; [|split; [destruct VB; constructor; assumption|exact VC]].
  constructor; cbn [set_cmds set_srv slots conns ncon os srv cmds stack log].
  - apply (v_n s VA).
  - apply (v_ok s VA).
  - apply (v_ent s VA).
  - apply (v_ent2 s VA).
  - intros l' fd' J. destruct (v_lis s VA l' fd' J) as (A & B). rewrite SF.
    split; [exact A|]. intros K. apply in_app_or in K. destruct K as [K|[K|[]]]; [contradiction|discriminate].
  - apply (v_nd s VA).
  - apply (v_rev s VA).
  - apply (v_prov s VA).
  - apply (v_disc s VA).
  - apply (v_busy s VA).
  - apply (v_alive s VA).
  - apply (v_accf s VA).
  - apply (v_fd s VA).
  - apply (v_os s VA).
  - intros l' fd'. rewrite SF. apply (v_srv s VA).
  - apply (v_con s VA).
  - apply (v_pinj s VA).
  - assert (X : forall (a : list cmd) x, NoDup a -> ~ In x a -> NoDup (a ++ [x])).
    { induction a as [|y a IH]; intros x N I; cbn [app]; [repeat constructor; intros []|].
      inversion N as [|? ? N1 N2]; subst. constructor.
      - intros J. apply in_app_or in J. destruct J as [J|[J|[]]]; [contradiction|]. apply I. left. congruence.
      - apply IH; [exact N2|]. intros J. apply I. right. exact J. }
    apply X; [apply (v_cmd s VA)|exact NCC].
  - intros l' J. rewrite SF. apply in_app_or in J.
    destruct J as [J|[J|[]]]; [apply (v_creg s VA); exact J|discriminate].
  - intros l' J. unfold fupd. apply in_app_or in J. destruct J as [J|[J|[]]].
    + destruct (v_ccl s VA l' J) as (A & B). destruct (Nat.eqb_spec l' l) as [->|]; auto.
    + injection J as <-. rewrite Nat.eqb_refl. split; [reflexivity|]. intros i K. destruct (v_fcl s VA l i K). congruence.
  - intros l'. rewrite SF. unfold fupd. destruct (Nat.eqb_spec l' l) as [->|]; [intros _; congruence|apply (v_stp s VA)].
  - intros l' i J. destruct (v_fcl s VA l' i J) as (A & B). unfold fupd. destruct (Nat.eqb_spec l' l) as [->|]; auto.
  - apply (v_recv s VA).
  - apply (v_recv2 s VA).
Qed.

(** a command leaves the queue *)
Lemma split_nth {A} (a : list A) i x : nth_error a i = Some x -> a = firstn i a ++ x :: skipn (S i) a.
Proof.
  revert i; induction a as [|y a IH]; intros [|i] H; cbn [nth_error firstn skipn app] in *; try discriminate.
  - injection H as ->. reflexivity.
  - f_equal. apply IH. exact H.
Qed.

Lemma inv_run_reg s i l fd : Inv s -> stack s = [] -> nth_error (cmds s) i = Some (CReg l) -> s_fd (srv s l) = Some fd ->
  Inv (set_slots (set_cmds s (firstn i (cmds s) ++ skipn (S i) (cmds s))) (register (slots s) (EListen l) fd)).
Proof.
  intros (VA & VB & VC) ES EN EF. pose proof (split_nth _ _ _ EN) as SP. set (q := firstn i (cmds s) ++ skipn (S i) (cmds s)) in *.
  pose proof (v_cmd s VA) as ND. rewrite SP in ND. pose proof (NoDup_remove_1 _ _ _ ND) as N1. pose proof (NoDup_remove_2 _ _ _ ND) as N2. fold q in N1, N2.
  assert (SUB : forall x, In x q -> In x (cmds s)).
  { intros x J. rewrite SP. apply in_or_app. apply in_app_or in J. destruct J; [left|right; right]; assumption. }
  assert (IC0 : In (CReg l) (cmds s)) by (eapply nth_error_In; exact EN).
  assert (NE : ~ In (EListen l) (eps (slots s))).
  { intros J. apply in_eps in J. destruct J as (fd' & J). destruct (v_lis s VA l fd' J). contradiction. }
  split; [|split; [destruct VB; constructor; assumption|exact VC]].
  constructor; cbn [set_slots set_cmds slots conns ncon os srv cmds stack log].
  - apply (v_n s VA).
  - apply (v_ok s VA).
  - intros c fd' J. apply register_in in J. destruct J as [J|J]; [discriminate|apply (v_ent s VA); exact J].
  - intros c J. apply register_in. right. apply (v_ent2 s VA). exact J.
  - intros l' fd' J. apply register_in in J. destruct J as [J|J].
    + injection J as -> ->. auto.
    + destruct (v_lis s VA l' fd' J) as (A & B). split; [exact A|]. intros K. apply B, SUB, K.
  - apply register_nd; [apply (v_nd s VA)|exact NE].
  - apply register_rev, (v_rev s VA).
  - apply (v_prov s VA).
  - apply (v_disc s VA).
  - apply (v_busy s VA).
  - apply (v_alive s VA).
  - apply (v_accf s VA).
  - apply (v_fd s VA).
  - apply (v_os s VA).
  - apply (v_srv s VA).
  - apply (v_con s VA).
  - apply (v_pinj s VA).
  - exact N1.
  - intros l' J. apply (v_creg s VA), SUB, J.
  - intros l' J. apply (v_ccl s VA), SUB, J.
  - apply (v_stp s VA).
  - rewrite ES. intros l' k [].
  - apply (v_recv s VA).
  - apply (v_recv2 s VA).
Qed.

Lemma inv_run_clean s i l : Inv s -> stack s = [] -> nth_error (cmds s) i = Some (CClean l) ->
  Inv (push (set_cmds s (firstn i (cmds s) ++ skipn (S i) (cmds s))) (FClean l 0)).
Proof.
  intros (VA & VB & VC) ES EN. pose proof (split_nth _ _ _ EN) as SP. set (q := firstn i (cmds s) ++ skipn (S i) (cmds s)) in *.
  pose proof (v_cmd s VA) as ND. rewrite SP in ND. pose proof (NoDup_remove_1 _ _ _ ND) as N1. pose proof (NoDup_remove_2 _ _ _ ND) as N2. fold q in N1, N2.
  assert (SUB : forall x, In x q -> In x (cmds s)).
  { intros x J. rewrite SP. apply in_or_app. apply in_app_or in J. destruct J; [left|right; right]; assumption. }
  assert (IC0 : In (CClean l) (cmds s)) by (eapply nth_error_In; exact EN).
  split; [|split; [destruct VB; constructor; assumption|exact VC]].
  unfold push. apply IA_stack; cbn [set_cmds slots srv stack cmds log].
  - constructor; cbn [set_cmds slots conns ncon os srv cmds stack log].
    + apply (v_n s VA).
    + apply (v_ok s VA).
    + apply (v_ent s VA).
    + apply (v_ent2 s VA).
    + intros l' fd' J. destruct (v_lis s VA l' fd' J) as (A & B). split; [exact A|]. intros K. apply B, SUB, K.
    + apply (v_nd s VA).
    + apply (v_rev s VA).
    + apply (v_prov s VA).
    + apply (v_disc s VA).
    + apply (v_busy s VA).
    + apply (v_alive s VA).
    + apply (v_accf s VA).
    + apply (v_fd s VA).
    + apply (v_os s VA).
    + apply (v_srv s VA).
    + apply (v_con s VA).
    + apply (v_pinj s VA).
    + exact N1.
    + intros l' J. apply (v_creg s VA), SUB, J.
    + intros l' J. apply (v_ccl s VA), SUB, J.
    + apply (v_stp s VA).
    + apply (v_fcl s VA).
    + apply (v_recv s VA).
    + apply (v_recv2 s VA).
  - intros c. cbn [In]. intuition discriminate.
  - intros c. cbn [In]. intuition discriminate.
  - reflexivity.
  - rewrite ES. intros l' k [J|[]]. injection J as <- <-. split; [apply (v_ccl s VA); exact IC0|]. split; [exact N2|].
    split; [exists []; reflexivity|]. intros j e fd b LJ. lia.
  - rewrite ES. intros c [].
  - discriminate.
Qed.

(** poll *)
Lemma inv_poll s ready : Inv s -> stack s = [] -> Inv (push (set_slots s (polled s (slots s) ready 0)) (FLoop 0)).
Proof.
  intros (VA & VB & VC) ES.
  split; [|split; [destruct VB; constructor; assumption|exact VC]].
  unfold push. apply IA_stack; cbn [set_slots slots srv stack cmds log].
  - constructor; cbn [set_slots slots conns ncon os srv cmds stack log]; unfold eps; rewrite ?polled_entries.
    + apply (v_n s VA).
    + apply (v_ok s VA).
    + apply (v_ent s VA).
    + apply (v_ent2 s VA).
    + apply (v_lis s VA).
    + apply (v_nd s VA).
    + apply polled_rev.
    + apply (v_prov s VA).
    + apply (v_disc s VA).
    + apply (v_busy s VA).
    + apply (v_alive s VA).
    + apply (v_accf s VA).
    + apply (v_fd s VA).
    + apply (v_os s VA).
    + apply (v_srv s VA).
    + apply (v_con s VA).
    + apply (v_pinj s VA).
    + apply (v_cmd s VA).
    + apply (v_creg s VA).
    + apply (v_ccl s VA).
    + apply (v_stp s VA).
    + rewrite ES. intros l k [].
    + apply (v_recv s VA).
    + apply (v_recv2 s VA).
  - intros c. cbn [In]. intuition discriminate.
  - intros c. cbn [In]. intuition discriminate.
  - reflexivity.
  - rewrite ES. intros l' k [J|[]]. discriminate.
  - rewrite ES. intros c [].
  - discriminate.
Qed.

(** a listener leaves its slot *)
Lemma inv_clear_listener s i l fd b : Inv s -> nth_error (slots s) i = Some (Some (EListen l, fd), b) ->
  Inv (set_slots s (clear (slots s) i)).
Proof.
  intros (VA & VB & VC) E.
  assert (CI : forall x, In x (entries (clear (slots s) i)) <-> In x (entries (slots s)) /\ fst x <> EListen l).
  { intros x. eapply clear_in; [apply (v_nd s VA)|exact E]. }
  split; [|split; [destruct VB; constructor; assumption|exact VC]].
  constructor; cbn [set_slots slots conns ncon os srv cmds stack log].
  - apply (v_n s VA).
  - apply (v_ok s VA).
  - intros c fd' J. apply CI in J. apply (v_ent s VA). tauto.
  - intros c J. apply CI. split; [apply (v_ent2 s VA); exact J|discriminate].
  - intros l' fd' J. apply CI in J. apply (v_lis s VA). tauto.
  - apply clear_nd, (v_nd s VA).
  - apply clear_rev, (v_rev s VA).
  - apply (v_prov s VA).
  - apply (v_disc s VA).
  - apply (v_busy s VA).
  - apply (v_alive s VA).
  - apply (v_accf s VA).
  - apply (v_fd s VA).
  - apply (v_os s VA).
  - apply (v_srv s VA).
  - apply (v_con s VA).
  - apply (v_pinj s VA).
  - apply (v_cmd s VA).
  - apply (v_creg s VA).
  - apply (v_ccl s VA).
  - apply (v_stp s VA).
  - intros l' k J. destruct (v_fcl s VA l' k J) as (A & B & C). split; [exact A|]. split; [exact B|].
    intros j e fd' b' LT H. apply clear_nth in H. apply (C j e fd' b' LT). tauto.
  - apply (v_recv s VA).
  - apply (v_recv2 s VA).
Qed.

(** StopListening ends *)
Lemma inv_stopped s l i r : Inv s -> stack s = FClean l i :: r -> nth_error (slots s) i = None ->
  Inv (stopped (set_cmds (set_stack s r) (List.filter (fun k => negb (Nat.eqb (cmd_owner k) l)) (cmds s))) l).
Proof.
  intros (VA & VB & VC) ES EN.
  destruct (v_fcl s VA l i) as (ST & (ds & DS) & PRE); [rewrite ES; left; reflexivity|].
  rewrite ES in DS. destruct ds as [|d ds]; [|discriminate]. injection DS as ->.
  pose proof (v_stp s VA l ST) as SF. destruct (s_fd (srv s l)) as [fd|] eqn:EF; [|congruence]. clear SF.
  assert (OF : os s fd = Some (SListen l)) by (apply (v_srv s VA); exact EF).
  assert (FREE : forall e fd', In (e, fd') (entries (slots s)) -> owner s e <> l).
  { intros e fd' J. apply in_entries in J. destruct J as (j & b & J). apply (PRE j e fd' b); [|exact J].
    apply nth_error_None in EN. assert (j < length (slots s)) by (apply nth_error_Some; congruence). lia. }
  assert (NB : forall c, L s c <> PProv /\ L s c <> PDisc).
  { intros c. split; intros P; [apply (v_prov s VA) in P|apply (v_disc s VA) in P]; rewrite ES in P; destruct P as [P|[]]; discriminate. }
  assert (FI : forall k, In k (List.filter (fun k => negb (Nat.eqb (cmd_owner k) l)) (cmds s)) <-> In k (cmds s) /\ cmd_owner k <> l).
  { intros k. rewrite filter_In. destruct (Nat.eqb_spec (cmd_owner k) l); cbn [negb]; intuition congruence. }
  unfold stopped. cbn [set_cmds set_stack srv]. rewrite EF.
  split; [|split].
  - apply IA_tell; [|reflexivity|discriminate].
    constructor; cbn [set_srv set_backlog set_os set_cmds set_stack slots conns ncon os srv cmds stack log].
    + apply (v_n s VA).
    + apply (v_ok s VA).
    + apply (v_ent s VA).
    + apply (v_ent2 s VA).
    + intros l' fd' J. destruct (v_lis s VA l' fd' J) as (A & B). specialize (FREE _ _ J). cbn [owner] in FREE.
      rewrite fupd_neq by exact FREE. split; [exact A|]. intros K. apply FI in K. tauto.
    + apply (v_nd s VA).
    + apply (v_rev s VA).
    + intros c. split; [intros P; destruct (NB c); contradiction|intros []].
    + intros c. split; [intros P; destruct (NB c); contradiction|intros []].
    + constructor.
    + apply (v_alive s VA).
    + apply (v_accf s VA).
    + intros c A. pose proof (v_fd s VA c A) as F. rewrite fupd_neq; [exact F|]. congruence.
    + intros fd' p. unfold fupd. destruct (Nat.eqb_spec fd' fd); [discriminate|apply (v_os s VA)].
    + intros l' fd'. unfold fupd. destruct (Nat.eqb_spec l' l) as [->|N], (Nat.eqb_spec fd' fd) as [->|M]; cbn [s_fd].
      * split; discriminate.
      * split; [discriminate|]. intros J. apply (v_srv s VA) in J. congruence.
      * rewrite (v_srv s VA), OF. split; congruence.
      * apply (v_srv s VA).
    + apply (v_con s VA).
    + apply (v_pinj s VA).
    + apply NoDup_filter, (v_cmd s VA).
    + intros l' J. apply FI in J. cbn [cmd_owner] in J. rewrite fupd_neq by tauto. apply (v_creg s VA). tauto.
    + intros l' J. apply FI in J. cbn [cmd_owner] in J. rewrite fupd_neq by tauto. destruct J as (J & _). destruct (v_ccl s VA l' J) as (A & _).
      split; [exact A|intros k []].
    + intros l'. unfold fupd. destruct (Nat.eqb_spec l' l); [discriminate|apply (v_stp s VA)].
    + intros l' k [].
    + intros c [].
    + discriminate.
  - destruct VB. constructor; cbn [tell set_srv set_backlog set_os set_cmds set_stack conns ncon peers backlog log msgs outs life mine]; try assumption.
    + intros l' p. unfold fupd at 1. destruct (Nat.eqb_spec l' l); [intros []|apply v_bk].
    + intros l'. unfold fupd. destruct (Nat.eqb_spec l' l); [constructor|apply v_bk2].
    + intros l1 l2 p. unfold fupd. destruct (Nat.eqb_spec l1 l); [intros []|]. destruct (Nat.eqb_spec l2 l); [intros _ []|]. apply v_bk3.
  - intros a l' b H c p J. cbn [tell log set_srv set_backlog set_os set_cmds set_stack] in H. destruct a as [|x a]; cbn [app] in H.
    + injection H. clear H. intros H1 H2. subst l' b. apply (v_con s VA) in J. destruct J as (LT & CS & _).
      destruct (NB c) as (N1 & N2). destruct (v_ok s VA c) as (N3 & N4).
      destruct (L s c) eqn:P; try congruence.
      * exfalso. apply (v_n s VA) in P. lia.
      * exfalso. apply (FREE (EConn c) (c_fd (conns s c))); [apply (v_ent2 s VA); exact P|]. cbn [owner]. congruence.
    + injection H as _ H. exact (VC a l' b H c p J).
Qed.

Lemma inv_go s a : Inv s -> legal s (LGo a) -> exists s', go s a = Ok s' /\ Inv s'.
Proof.
  intros V LG. pose proof V as (VA & VB & VC). unfold go. destruct (stack s) as [|f r] eqn:ES; [eauto|].
  destruct f as [i|l i|c|c|c|c]; try (eexists; split; [reflexivity|exact V]).
  - (* the loop *)
    pose proof (no_clean s _ r VA ES ltac:(discriminate) ltac:(discriminate)) as NC.
    pose proof (no_recv s _ r VA ES ltac:(discriminate)) as NR.
    assert (VS : forall j, Inv (set_stack s (FLoop j :: r))).
    { intros j. split; [|split; [apply IB_stack; exact VB|exact VC]]. apply IA_stack; try assumption.
      - intros c. rewrite ES. cbn [In]. intuition discriminate.
      - intros c. rewrite ES. cbn [In]. intuition discriminate.
      - rewrite ES. reflexivity.
      - intros l' i' [J|J]; [discriminate|]. exfalso. apply (NC l' i'). rewrite ES. right. exact J.
      - cbn [tl]. intros c J. apply (NR c). rewrite ES. right. exact J.
      - discriminate. }
    assert (NC2 : forall j l i, ~ In (FClean l i) (stack (set_stack s (FLoop j :: r)))).
    { intros j l' i' [J|J]; [discriminate|]. apply (NC l' i'). rewrite ES. right. exact J. }
    assert (NR2 : forall j c, ~ In (FRecv c) (stack (set_stack s (FLoop j :: r)))).
    { intros j c [J|J]; [discriminate|]. apply (NR c). rewrite ES. right. exact J. }
    destruct (nth_error (slots s) i) as [(o, b)|] eqn:EN.
    + destruct b; [|exists (set_stack s (FLoop (S i) :: r)); split; [destruct o as [([?|?], ?)|]; reflexivity|apply VS]].
      destruct o as [([l|c], fd)|].
      * unfold connect. destruct a as [| |fd']; [destruct LG| |]; cbn [set_stack backlog].
        -- destruct (backlog s l) as [|p rb] eqn:EB; [eexists; split; [reflexivity|apply VS]|].
           eexists. split; [reflexivity|]. destruct (VS (S i)) as (WA & WB & WC). split; [apply IA_backlog; exact WA|]. split; [|exact WC].
           destruct WB. constructor; cbn [set_backlog peers conns ncon backlog log]; try assumption.
           ++ intros l' q. unfold fupd at 1. destruct (Nat.eqb_spec l' l) as [->|]; [|apply v_bk]. intros J. apply (v_bk l).
              cbn [set_stack backlog]. rewrite EB. right. exact J.
           ++ intros l'. unfold fupd. destruct (Nat.eqb_spec l' l) as [->|]; [|apply v_bk2]. pose proof (v_bk2 l) as X. cbn [set_stack backlog] in X.
              rewrite EB in X. inversion X; assumption.
           ++ intros l1 l2 q. cbn [set_stack backlog] in v_bk3. unfold fupd.
              destruct (Nat.eqb_spec l1 l) as [->|], (Nat.eqb_spec l2 l) as [->|]; intros A B; auto.
              ** apply (v_bk3 l l2 q); [rewrite EB; right; exact A|exact B].
              ** apply (v_bk3 l1 l q); [exact A|rewrite EB; right; exact B].
              ** eapply v_bk3; eassumption.
        -- destruct (backlog s l) as [|p rb] eqn:EB; [eexists; split; [reflexivity|apply VS]|].
           eexists. split; [reflexivity|]. apply (inv_connect (set_stack s (FLoop (S i) :: r)) l p rb fd'); auto.
      * apply inv_input; auto. destruct (v_ent s VA c fd) as (A & _); [apply in_entries; eauto|exact A].
      * exfalso. assert (X : true = false); [|discriminate]. apply (v_rev s VA (None, true)); [eapply nth_error_In; exact EN|reflexivity].
    + eexists. split; [reflexivity|]. split; [|split; [apply IB_stack; exact VB|exact VC]]. apply IA_stack; try assumption.
      * intros c. rewrite ES. cbn [In]. intuition discriminate.
      * intros c. rewrite ES. cbn [In]. intuition discriminate.
      * rewrite ES. reflexivity.
      * intros l' i' J. exfalso. apply (NC l' i'). rewrite ES. right. exact J.
      * intros c J. apply (NR c). rewrite ES. right. destruct r; [destruct J|right; exact J].
      * intros c r' E. exfalso. apply (NR c). rewrite ES, E. right. left. reflexivity.
  - (* ProcessCleanup *)
    destruct (v_fcl s VA l i) as (ST & (ds & DS) & PRE); [rewrite ES; left; reflexivity|].
    assert (ER : r = []) by (rewrite ES in DS; destruct ds; [injection DS as ->; reflexivity|discriminate]). subst r.
    pose proof (no_recv s _ _ VA ES ltac:(discriminate)) as NR.
    assert (NCC : ~ In (CClean l) (cmds s)).
    { intros J. apply (v_ccl s VA) in J. destruct J as (_ & J). apply (J i). rewrite ES. left. reflexivity. }
    destruct (nth_error (slots s) i) as [(o, b)|] eqn:EN; [|eexists; split; [reflexivity|apply (inv_stopped s l i []); assumption]].
    (* the next index, once slot i is not the owner's *)
    assert (NX : forall s1, Inv s1 -> stack s1 = map FDisc [] ++ [FClean l i] -> srv s1 = srv s -> cmds s1 = cmds s ->
       (forall e fd b', nth_error (slots s1) i = Some (Some (e, fd), b') -> owner s1 e <> l) -> Inv (set_stack s1 [FClean l (S i)])).
    { intros s1 (WA & WB & WC) ES1 SR CM H. split; [|split; [apply IB_stack; exact WB|exact WC]]. apply IA_stack; try assumption.
      - intros c. rewrite ES1. cbn [map app In]. intuition discriminate.
      - intros c. rewrite ES1. cbn [map app In]. intuition discriminate.
      - rewrite ES1. reflexivity.
      - intros l' i' [J|[]]. injection J as <- <-. rewrite SR, CM. split; [exact ST|]. split; [exact NCC|]. split; [exists []; reflexivity|].
        destruct (v_fcl s1 WA l i) as (_ & _ & P); [rewrite ES1; left; reflexivity|].
        intros j e fd b' LJ HJ. destruct (Nat.eq_dec j i) as [->|]; [apply (H e fd b' HJ)|]. apply (P j e fd b'); [lia|exact HJ].
      - intros c [].
      - discriminate. }
    destruct o as [(e, fd)|].
    + destruct e as [l'|c]; cbn [ep_ok owner].
      * cbn [negb]. destruct (Nat.eqb_spec l' l) as [->|N].
        -- unfold unpoll. cbn [set_stack slots]. rewrite EN. eexists. split; [reflexivity|].
           pose proof (inv_clear_listener s i l fd b V EN) as W.
           apply (NX (set_slots s (clear (slots s) i)) W); try reflexivity; [exact ES|].
           cbn [set_slots slots]. intros e fd' b' H. apply clear_nth in H. exfalso. apply (proj1 H eq_refl).
        -- eexists. split; [reflexivity|]. apply NX; auto. intros e fd' b' H. rewrite EN in H. injection H as <- _ _. exact N.
      * destruct (v_ent s VA c fd) as (PA & _); [apply in_entries; eauto|].
        pose proof (acc_alive s c VA PA) as AL. rewrite AL. cbn [negb].
        destruct (Nat.eqb_spec (c_srv (conns s c)) l) as [EO|N].
        -- assert (AC : c_acc (conns s c) = true) by (rewrite (v_accf s VA c AL), PA; reflexivity).
           rewrite (unpoll_eq (set_stack s [FClean l (S i)]) i c fd b EN AL AC).
           eexists. split; [reflexivity|].
           destruct (inv_disc s i c fd b V NR EN) as ((WA & WB & WC) & _).
           assert (GOAL : Inv (set_stack (tell (push (set_slots s (clear (slots s) i)) (FDisc c)) (VDisc c)) [FDisc c; FClean l (S i)])); [|exact GOAL].
           split; [|split; [apply IB_stack; exact WB|exact WC]].
           apply IA_stack; cbn [tell push set_stack set_slots slots srv cmds stack log]; try assumption.
           ++ intros c'. rewrite ES. cbn [In]. intuition discriminate.
           ++ intros c'. rewrite ES. cbn [In]. intuition discriminate.
           ++ rewrite ES. reflexivity.
           ++ intros l' i' [J|[J|[]]]; [discriminate|]. injection J as <- <-. split; [exact ST|]. split; [exact NCC|]. split; [exists [c]; reflexivity|].
              intros j e fd' b' LJ HJ. apply clear_nth in HJ. destruct HJ as (NJ & HJ).
              apply (PRE j e fd' b'); [lia|exact HJ].
           ++ cbn [tl]. intros c' [J|[]]. discriminate.
           ++ discriminate.
        -- eexists. split; [reflexivity|]. apply NX; auto. intros e fd' b' H. rewrite EN in H. injection H as <- _ _. exact N.
    + eexists. split; [reflexivity|]. apply NX; auto. intros e fd' b' H. rewrite EN in H. discriminate.
  - (* waiting in recvmsg *)
    pose proof (v_recv2 s VA c r ES) as PA.
    pose proof (no_clean s _ r VA ES ltac:(discriminate) ltac:(discriminate)) as NC.
    apply inv_input.
    + split; [|split; [apply IB_stack; exact VB|exact VC]]. apply IA_stack; try assumption.
      * intros c'. rewrite ES. cbn [In]. intuition discriminate.
      * intros c'. rewrite ES. cbn [In]. intuition discriminate.
      * rewrite ES. reflexivity.
      * intros l' i' J. exfalso. apply (NC l' i'). rewrite ES. right. exact J.
      * intros c' J. apply (v_recv s VA c'). rewrite ES. cbn [tl]. destruct r; [destruct J|right; exact J].
      * intros c' r' E. exfalso. apply (v_recv s VA c'). rewrite ES, E. left. reflexivity.
    + cbn [set_stack stack]. intros c' J. apply (v_recv s VA c'). rewrite ES. exact J.
    + cbn [set_stack stack]. intros l' i' J. apply (NC l' i'). rewrite ES. right. exact J.
    + exact PA.
Qed.

Lemma inv_send s c m : Inv s -> usable s c -> exists s', send s c m = Ok s' /\ Inv s'.
Proof.
  intros V US. pose proof V as (VA & VB & VC). unfold send.
  assert (AL : c_alive (conns s c) = true) by (apply (v_alive s VA); destruct US; auto). rewrite AL. cbn [negb].
  rewrite (v_accf s VA c AL). assert (X : match L s c with PProv => false | _ => true end = true) by (destruct US as [P|P]; rewrite P; reflexivity).
  rewrite X. cbn [negb]. rewrite (v_fd s VA c AL).
  destruct (p_open (peers s (c_peer (conns s c)))) eqn:O; [|eauto]. eexists. split; [reflexivity|].
  rewrite <- O. apply inv_out; auto.
Qed.

Theorem inv_step s l : Inv s -> legal s l -> exists s', step s l = Ok s' /\ Inv s'.
Proof.
  intros V LG. pose proof V as (VA & VB & VC). destruct l as [l fd|l|p l|p it|p|p|i|ready|a|a|a|b]; cbn [step].
  - destruct (s_fd (srv s l)) eqn:E; [eauto|]. destruct (os s fd) eqn:O; [eauto|]. eexists. split; [reflexivity|]. apply inv_listen; assumption.
  - destruct (s_fd (srv s l)) as [fd|] eqn:E; [|eauto]. destruct (s_stop (srv s l)) eqn:O; [eauto|]. eexists. split; [reflexivity|]. apply inv_stop; assumption.
  - destruct (p_used (peers s p)) eqn:U; cbn [negb andb]; [eauto|]. destruct (s_fd (srv s l)); [|eauto]. eexists. split; [reflexivity|].
    assert (NB : forall l', ~ In p (backlog s l')) by (intros l' J; destruct (v_bk s VB l' p J); congruence).
    assert (NP : forall c, c < ncon s -> c_peer (conns s c) <> p) by (intros c LT E; pose proof (v_used s VB c LT); congruence).
    split; [apply IA_backlog, IA_peer; exact VA|]. split; [|exact VC].
    constructor; cbn [set_backlog set_peer peers conns ncon backlog log].
    + intros c LT. rewrite fupd_neq by (apply NP; exact LT). apply (v_used s VB). exact LT.
    + intros l' q. unfold fupd at 1. destruct (Nat.eqb_spec l' l) as [->|]; intros J.
      * apply in_app_or in J. destruct J as [J|[<-|[]]].
        -- rewrite fupd_neq by (intros ->; apply (NB l J)). apply (v_bk s VB l). exact J.
        -- rewrite fupd_eq. cbn. auto.
      * rewrite fupd_neq by (intros ->; apply (NB l' J)). apply (v_bk s VB l'). exact J.
    + intros l'. unfold fupd. destruct (Nat.eqb_spec l' l) as [->|]; [|apply (v_bk2 s VB)].
      pose proof (v_bk2 s VB l) as ND. specialize (NB l). revert ND NB. generalize (backlog s l). intros q ND NB.
      induction q as [|y q IH]; cbn [app]; [repeat constructor; intros []|].
      inversion ND as [|? ? N1 N2]; subst. constructor.
      * intros J. apply in_app_or in J. destruct J as [J|[J|[]]]; [contradiction|]. apply NB. left. congruence.
      * apply IH; [exact N2|]. intros J. apply NB. right. exact J.
    + intros l1 l2 q. unfold fupd.
      destruct (Nat.eqb_spec l1 l) as [->|], (Nat.eqb_spec l2 l) as [->|]; intros A B; auto.
      * apply in_app_or in A. destruct A as [A|[<-|[]]]; [eapply (v_bk3 s VB); eassumption|exfalso; apply (NB l2 B)].
      * apply in_app_or in B. destruct B as [B|[<-|[]]]; [eapply (v_bk3 s VB); eassumption|exfalso; apply (NB l1 A)].
      * eapply (v_bk3 s VB); eassumption.
    + intros c LT. rewrite fupd_neq by (apply NP; exact LT). apply (v_msgs s VB). exact LT.
    + intros c LT. rewrite fupd_neq by (apply NP; exact LT). apply (v_outs s VB). exact LT.
  - destruct (p_used (peers s p) && p_open (peers s p)); [|eauto]. eexists. split; [reflexivity|].
    split; [apply IA_peer; exact VA|]. split; [|exact VC]. apply IB_peer; try assumption; cbn [p_used p_in p_sent p_out].
    + reflexivity.
    + intros l J. destruct (v_bk s VB l p J) as (_ & A & B & _). rewrite A. auto.
    + intros c LT E. rewrite <- E. split; [apply (v_outs s VB); exact LT|]. destruct (v_msgs s VB c LT) as (r & A & B).
      exists (r ++ [it]). split; [rewrite A, app_assoc; reflexivity|]. intros H. rewrite (B H). reflexivity.
  - destruct (p_used (peers s p) && p_open (peers s p)); [|eauto]. eexists. split; [reflexivity|].
    split; [apply IA_peer; exact VA|]. split; [|exact VC]. apply IB_peer; try assumption; cbn [p_used p_in p_sent p_out].
    + reflexivity.
    + intros l J. destruct (v_bk s VB l p J) as (_ & A & B & _). auto.
    + intros c LT E. rewrite <- E. split; [apply (v_outs s VB); exact LT|]. apply (v_msgs s VB c LT).
  - destruct (p_used (peers s p)); [|eauto]. eexists. split; [reflexivity|].
    split; [apply IA_peer; exact VA|]. split; [|exact VC]. apply IB_peer; try assumption; cbn [p_used p_in p_sent p_out].
    + reflexivity.
    + intros l J. destruct (v_bk s VB l p J) as (_ & A & B & _). auto.
    + intros c LT E. rewrite <- E. split; [apply (v_outs s VB); exact LT|]. apply (v_msgs s VB c LT).
  - destruct (stack s) eqn:ES; [|eauto]. destruct (nth_error (cmds s) i) as [k|] eqn:EN; [|eauto]. destruct k as [l|l].
    + destruct (s_fd (srv s l)) as [fd|] eqn:EF.
      * eexists. split; [reflexivity|]. apply inv_run_reg; assumption.
      * exfalso. apply (v_creg s VA l); [eapply nth_error_In; exact EN|exact EF].
    + eexists. split; [reflexivity|]. apply inv_run_clean; assumption.
  - destruct (stack s) eqn:ES; [|eauto]. eexists. split; [reflexivity|]. apply inv_poll; assumption.
  - apply inv_go; assumption.
  - destruct (in_callback s) eqn:IN; [|eauto]. assert (NR : forall c, ~ In (FRecv c) (stack s)).
    { unfold in_callback in IN. destruct (stack s) as [|f r] eqn:ES; [discriminate|]. rewrite <- ES.
      apply (no_recv s f r VA ES). intros c ->. discriminate. }
    destruct a as [c m|c]; cbn [act legal] in *.
    + apply inv_send; assumption.
    + assert (AL : c_alive (conns s c) = true) by (apply (v_alive s VA); destruct LG; auto). rewrite AL. cbn [negb].
      apply inv_unregister; assumption.
  - destruct a as [c m|c]; cbn [act_thread legal] in *; [apply inv_send; assumption|destruct LG].
  - unfold ret. destruct (stack s) as [|f r] eqn:ES; [eauto|]. destruct f as [i|l i|c|c|c|c]; try (eexists; split; [reflexivity|exact V]).
    + destruct b.
      * eexists. split; [reflexivity|]. apply (inv_accept s c r V ES).
      * assert (PP : L s c = PProv) by (apply (v_prov s VA); rewrite ES; left; reflexivity).
        assert (AL : c_alive (conns s c) = true) by (apply (v_alive s VA); auto).
        unfold destroy. cbn [tell set_stack conns]. rewrite AL. cbn [negb]. rewrite (v_accf s VA c AL), PP.
        eexists. split; [reflexivity|]. apply (inv_gone s c r (FConnect c) [VReject c] V ES). auto.
    + pose proof (no_clean s _ r VA ES ltac:(discriminate) ltac:(discriminate)) as NC.
      assert (W : Inv (set_stack s r)).
      { split; [|split; [apply IB_stack; exact VB|exact VC]]. apply IA_stack; try assumption.
        - intros c'. rewrite ES. cbn [In]. intuition discriminate.
        - intros c'. rewrite ES. cbn [In]. intuition discriminate.
        - rewrite ES. reflexivity.
        - intros l' i' J. exfalso. apply (NC l' i'). rewrite ES. right. exact J.
        - intros c' J. apply (v_recv s VA c'). rewrite ES. cbn [tl]. destruct r; [destruct J|right; exact J].
        - intros c' r' E. exfalso. apply (v_recv s VA c'). rewrite ES, E. left. reflexivity. }
      destruct b; [eauto|]. cbn [legal] in LG. rewrite ES in LG.
      destruct (c_alive (conns s c)) eqn:AL; cbn [negb].
      * apply inv_unregister; [exact W|]. cbn [set_stack stack]. intros c' J. apply (v_recv s VA c'). rewrite ES. exact J.
      * exfalso. assert (X : c_alive (conns s c) = true) by (apply (v_alive s VA); destruct LG; auto). congruence.
    + eexists. split; [reflexivity|]. apply (inv_gone s c r (FDisc c) [] V ES). auto.
Qed.
