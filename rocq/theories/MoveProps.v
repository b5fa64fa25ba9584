(** C108: moving a proxy or skeleton object changes nothing but its place; a
    service ends when, and only when, the variable that holds it is destroyed
    or gets another value. *)
From Verif Require Import Base OffsetPtrModel MoveModel MoveSpec MoveProof.
Open Scope nat_scope.

(** ** every legal history: the objects behave as if they were never moved *)

(** What the rest of the system sees (announcements, active elements, samples in
    use, the log of all effects) is what the specification says, in which a move
    only says which variable holds the service.  There is no undefined behaviour;
    the program is ended only where the specification says so: when a service
    ends, or is unsubscribed, while the user still has samples.  Partial: see the
    restrictions [may_move] and [may_end], each needed (below). *)
Theorem C108_as_if_never_moved_partial : forall traced os,
  legal_run traced a0 os ->
  match s_run a0 os with
  | Ok a => exists s, run traced s0 os = Ok s /\ wd s = sw a
  | Term => run traced s0 os = Term
  | UB => False
  end.
Proof.
  intros traced os L. pose proof (sim_run traced os s0 a0 inv0 (R0 traced) L) as S.
  destruct (s_run a0 os) as [a| |]; [|exact S|exact S].
  destruct S as (s & F & (W & _) & _). exists s. auto.
Qed.

Lemma reach traced os a : legal_run traced a0 os -> s_run a0 os = Ok a -> Inv a.
Proof.
  intros L E. pose proof (sim_run traced os s0 a0 inv0 (R0 traced) L) as S. rewrite E in S.
  destruct S as (s & _ & _ & V). exact V.
Qed.

(** ** a service is announced only while exactly one variable holds it *)
Theorem C108_announced_has_one_owner : forall traced os s i,
  legal_run traced a0 os -> run traced s0 os = Ok s -> ann (wd s) i = true ->
  exists a l t, s_run a0 os = Ok a /\ var a l = Some (t, Some i) /\ skel t = true /\
    forall l' t', var a l' = Some (t', Some i) -> l' = l.
Proof.
  intros traced os s i L F A. pose proof (C108_as_if_never_moved_partial traced os L) as S.
  destruct (s_run a0 os) as [a| |] eqn:E; [|congruence|destruct S].
  destruct S as (s' & F' & W). rewrite F in F'. injection F' as <-. rewrite W in A.
  pose proof (reach _ _ _ L E) as V. destruct (v_ann a V i A) as (l & t & El & ST).
  exists a, l, t. split; [reflexivity|]. split; [exact El|]. split; [exact ST|].
  intros l' t' E'. eapply (v_uniq a V); eassumption.
Qed.

(** ** announcing and withdrawing alternate *)
Definition is_ann (i : nat) (e : event) : bool := match e with Announced j => Nat.eqb j i | _ => false end.
Definition is_wd (i : nat) (e : event) : bool := match e with Withdrawn j => Nat.eqb j i | _ => false end.
Definition count (p : event -> bool) (l : list event) : nat := length (List.filter p l).

Definition bal (w : world) : Prop :=
  forall i, count (is_ann i) (log w) = count (is_wd i) (log w) + (if ann w i then 1 else 0).

Lemma bal_off i ks : forall w, bal w -> bal (fold_left (fun w k => if act w i k then w_off w i k else w) ks w).
Proof. induction ks as [|k r IH]; intros w B; cbn [fold_left]; [exact B|]. apply IH. destruct (act w i k); [|exact B]. intros j. apply (B j). Qed.

Lemma bal_on i ks : forall w, bal w -> bal (fold_left (fun w k => w_on w i k) ks w).
Proof. induction ks as [|k r IH]; intros w B; cbn [fold_left]; [exact B|]. apply IH. intros j. apply (B j). Qed.

Lemma bal_withdraw w i : bal w -> ann w i = true -> bal (w_withdraw w i).
Proof.
  intros B A j. specialize (B j). cbn [w_withdraw log ann]. unfold count in *. cbn [List.filter is_ann is_wd].
  unfold fupd. rewrite (Nat.eqb_sym j i). destruct (Nat.eqb_spec i j) as [->|]; cbn [length]; [rewrite A in B; lia|exact B].
Qed.

Lemma bal_announce w i : bal w -> ann w i = false -> bal (w_announce w i).
Proof.
  intros B A j. specialize (B j). cbn [w_announce log ann]. unfold count in *. cbn [List.filter is_ann is_wd].
  unfold fupd. rewrite (Nat.eqb_sym j i). destruct (Nat.eqb_spec i j) as [->|]; cbn [length]; [rewrite A in B; lia|exact B].
Qed.

Lemma bal_stopped w t i : bal w -> bal (stopped w t i).
Proof.
  intros B. unfold stopped, off_all. destruct (skel t); [|apply bal_off; exact B].
  destruct (ann w i) eqn:A; [|exact B]. apply bal_off, bal_withdraw; assumption.
Qed.

Lemma bal_end a t v a1 : bal (sw a) -> s_end_opt a t v = Ok a1 -> bal (sw a1).
Proof.
  intros B. destruct v as [i|]; cbn [s_end_opt]; [|intros [= <-]; exact B].
  unfold s_end. destruct (any_held (sw a) t i); [discriminate|]. intros [= <-]. apply bal_stopped. exact B.
Qed.

Lemma bal_step traced a o a' : bal (sw a) -> legal traced a o -> s_step a o = Ok a' -> bal (sw a').
Proof.
  intros B L S. destruct o as [l t|d r|d r|l|l|l|l k|l k|i k|l k|l k|l k|i k]; cbn [legal s_step] in L, S.
  - injection S as <-. exact B.
  - destruct (var a r) as [(t, v)|]; [|discriminate]. injection S as <-. exact B.
  - destruct (var a d) as [(t, v)|]; [|discriminate]. destruct (var a r) as [(t', v')|]; [|discriminate].
    destruct (Nat.eqb d r); [injection S as <-; exact B|].
    destruct (s_end_opt a t v) as [a1| |] eqn:E; cbn [bind] in S; [|discriminate|discriminate].
    injection S as <-. exact (bal_end a t v a1 B E).
  - destruct (var a l) as [(t, v)|]; [|discriminate].
    destruct (s_end_opt a t v) as [a1| |] eqn:E; cbn [bind] in S; [|discriminate|discriminate].
    injection S as <-. exact (bal_end a t v a1 B E).
  - destruct L as (t & i & El & _ & An). rewrite El in S. injection S as <-. apply bal_announce.
    + apply bal_on. exact B.
    + unfold on_all. rewrite on_ann. exact An.
  - destruct (var a l) as [(t, [i|])|]; [|injection S as <-; exact B|discriminate]. injection S as <-. apply bal_stopped. exact B.
  - destruct (var a l) as [(t, [i|])|]; [| |discriminate]; injection S as <-; intros j; [destruct (if skel t then _ else _)|]; apply (B j).
  - destruct (var a l) as [(t, [i|])|]; [| |discriminate]; injection S as <-; [destruct (if skel t then _ else _)|]; intros j; apply (B j).
  - injection S as <-. intros j. apply (B j).
  - destruct (var a l) as [(t, [i|])|]; [|discriminate|discriminate]. injection S as <-. intros j. cbn [with_w sw].
    destruct (act (sw a) i k); apply (B j).
  - destruct (var a l) as [(t, [i|])|]; [|discriminate|discriminate].
    destruct (act (sw a) i k); [|injection S as <-; exact B]. destruct (Nat.ltb _ _); [discriminate|]. injection S as <-. intros j. apply (B j).
  - destruct (var a l) as [(t, [i|])|]; [|discriminate|discriminate]. injection S as <-. intros j. apply (B j).
  - injection S as <-. destruct (_ && _); intros j; apply (B j).
Qed.

Lemma bal_run traced os : forall a a', bal (sw a) -> legal_run traced a os -> s_run a os = Ok a' -> bal (sw a').
Proof.
  induction os as [|o r IH]; intros a a' B L E; cbn [s_run] in E.
  - injection E as <-. exact B.
  - destruct L as (L & Lr). destruct (s_step a o) as [a1| |] eqn:S; cbn [bind] in E; [|discriminate|discriminate].
    eapply IH; [eapply bal_step; eassumption|apply Lr; reflexivity|exact E].
Qed.

(** However objects are moved, each offer of a service is withdrawn at most once, and
    only what was offered is withdrawn. *)
Theorem C108_withdrawn_exactly_once : forall traced os s i,
  legal_run traced a0 os -> run traced s0 os = Ok s ->
  count (is_ann i) (log (wd s)) = count (is_wd i) (log (wd s)) + (if ann (wd s) i then 1 else 0).
Proof.
  intros traced os s i L F. pose proof (C108_as_if_never_moved_partial traced os L) as S.
  destruct (s_run a0 os) as [a| |] eqn:E; [|congruence|destruct S].
  destruct S as (s' & F' & W). rewrite F in F'. injection F' as <-. rewrite W.
  apply (bal_run traced os a0 a); [|exact L|exact E]. intros j. reflexivity.
Qed.

(** ** the end of a service *)

Lemma s_run_app a os1 os2 : s_run a (os1 ++ os2) = (do a1 <- s_run a os1 ; s_run a1 os2).
Proof. revert a; induction os1 as [|o r IH]; intros a; cbn [app s_run bind]; [reflexivity|]. destruct (s_step a o); cbn [bind]; [apply IH|reflexivity|reflexivity]. Qed.

Lemma run_app traced s os1 os2 : run traced s (os1 ++ os2) = (do s1 <- run traced s os1 ; run traced s1 os2).
Proof. revert s; induction os1 as [|o r IH]; intros s; cbn [app run bind]; [reflexivity|]. destruct (step traced s o); cbn [bind]; [apply IH|reflexivity|reflexivity]. Qed.

Lemma legal_run_app traced os1 os2 : forall a,
  legal_run traced a (os1 ++ os2) <->
  legal_run traced a os1 /\ forall a1, s_run a os1 = Ok a1 -> legal_run traced a1 os2.
Proof.
  induction os1 as [|o r IH]; intros a; cbn [app legal_run s_run].
  - split; [intros H; split; [exact I|intros a1 [= <-]; exact H]|intros (_ & H); apply H; reflexivity].
  - split.
    + intros (L & H). split.
      * split; [exact L|]. intros a1 E. apply IH. apply H. exact E.
      * intros a2 E. destruct (s_step a o) as [a1| |] eqn:S; cbn [bind] in E; [|discriminate|discriminate].
        specialize (H a1 eq_refl). apply IH in H. apply H. exact E.
    + intros ((L & H) & K). split; [exact L|]. intros a1 E. apply IH. split; [apply H; exact E|].
      intros a2 E2. apply K. rewrite E. exact E2.
Qed.

Definition concerns (i : nat) (e : event) : Prop :=
  match e with
  | Announced j | Withdrawn j => j = i
  | On j _ | Off j _ | Used j _ | Took j _ | Gave j _ | HandlerSet j _ | Called j _ => j = i
  | Refused => False
  end.

Definition owner_of (a : sst) (i : nat) : Prop := exists l t, var a l = Some (t, Some i).

(** [w'] is [w] after some more events, none about [i] *)
Definition later (i : nat) (w w' : world) : Prop :=
  ann w' i = ann w i /\ (forall k, act w' i k = act w i k) /\ (forall k, held w' i k = held w i k) /\
  exists evs, log w' = evs ++ log w /\ forall e, In e evs -> ~ concerns i e.

Lemma later_refl i w : later i w w.
Proof. split; [reflexivity|]. split; [reflexivity|]. split; [reflexivity|]. exists []. split; [reflexivity|intros e []]. Qed.

Lemma later_trans i w1 w2 w3 : later i w1 w2 -> later i w2 w3 -> later i w1 w3.
Proof.
  intros (A & B & C & ev & D & E) (A' & B' & C' & ev' & D' & E').
  split; [congruence|]. split; [intros; rewrite B'; apply B|]. split; [intros; rewrite C'; apply C|].
  exists (ev' ++ ev). split; [rewrite D', D, app_assoc; reflexivity|].
  intros e H. apply in_app_or in H. destruct H; auto.
Qed.

Lemma later_one i w w' e : ann w' i = ann w i -> (forall k, act w' i k = act w i k) -> (forall k, held w' i k = held w i k) ->
  log w' = e :: log w -> ~ concerns i e -> later i w w'.
Proof. intros A B C D E. split; [exact A|]. split; [exact B|]. split; [exact C|]. exists [e]. split; [exact D|]. intros x [<-|[]]. exact E. Qed.

Ltac ne := cbn; unfold fupd, fupd2; intros; repeat match goal with |- context [Nat.eqb ?a ?b] => destruct (Nat.eqb_spec a b) end; cbn; congruence.

Lemma later_off i j ks : j <> i -> forall w, later i w (fold_left (fun w k => if act w j k then w_off w j k else w) ks w).
Proof.
  intros N. induction ks as [|k r IH]; intros w; cbn [fold_left]; [apply later_refl|].
  eapply later_trans; [|apply IH]. destruct (act w j k); [|apply later_refl].
  eapply later_one with (e := Off j k); ne.
Qed.

Lemma later_on i j ks : j <> i -> forall w, later i w (fold_left (fun w k => w_on w j k) ks w).
Proof.
  intros N. induction ks as [|k r IH]; intros w; cbn [fold_left]; [apply later_refl|].
  eapply later_trans; [|apply IH]. eapply later_one with (e := On j k); ne.
Qed.

Lemma later_announce i j w : j <> i -> later i w (w_announce w j).
Proof. intros N. eapply later_one with (e := Announced j); ne. Qed.

Lemma later_stopped i j t w : j <> i -> later i w (stopped w t j).
Proof.
  intros N. unfold stopped, off_all. destruct (skel t); [|apply later_off; exact N].
  destruct (ann w j); [|apply later_refl]. eapply later_trans; [|apply later_off; exact N].
  eapply later_one with (e := Withdrawn j); ne.
Qed.

Lemma later_end a t v a1 i : v <> Some i -> s_end_opt a t v = Ok a1 ->
  later i (sw a) (sw a1) /\ var a1 = var a /\ snxt a1 = snxt a.
Proof.
  intros N. destruct v as [j|]; cbn [s_end_opt]; [|intros [= <-]; split; [apply later_refl|auto]].
  unfold s_end. destruct (any_held (sw a) t j); [discriminate|]. intros [= <-]. cbn [sw var snxt].
  split; [apply later_stopped; congruence|auto].
Qed.

Lemma silent_step traced a o a' i : Inv a -> legal traced a o -> s_step a o = Ok a' ->
  i < snxt a -> ~ owner_of a i -> later i (sw a) (sw a') /\ ~ owner_of a' i /\ i < snxt a'.
Proof.
  intros V L S LT NO.
  assert (NV : forall l t v, var a l = Some (t, v) -> v <> Some i).
  { intros l t v E ->. apply NO. exists l, t. exact E. }
  assert (NH : forall k, held (sw a) i k = 0).
  { intros k. destruct (held (sw a) i k) eqn:Hk; [reflexivity|]. destruct (v_held a V i k ltac:(lia)) as (l & t & E & _).
    exfalso. apply NO. exists l, t. exact E. }
  assert (NS : forall k, shnd a i k = false).
  { intros k. destruct (shnd a i k) eqn:Hk; [|reflexivity]. destruct (v_hnd a V i k Hk) as (l & t & E & _).
    exfalso. apply NO. exists l, t. exact E. }
  assert (UPD : forall a1 l x, (forall t, x <> Some (t, Some i)) -> ~ owner_of a1 i -> ~ owner_of (with_var a1 l x) i).
  { intros a1 l x NX NA (l' & t' & E). rewrite var_upd in E. destruct (Nat.eqb_spec l' l) as [->|].
    - apply (NX t'). exact E.
    - apply NA. exists l', t'. exact E. }
  destruct o as [l t|d r|d r|l|l|l|l k|l k|j k|l k|l k|l k|j k]; cbn [legal s_step] in L, S.
  - injection S as <-. cbn [sw snxt]. split; [apply later_refl|]. split; [|lia].
    intros (l' & t' & E). cbn [var] in E. unfold fupd in E. destruct (Nat.eqb_spec l' l) as [->|].
    + injection E as _ E. lia.
    + apply NO. exists l', t'. exact E.
  - destruct (var a r) as [(t, v)|] eqn:Er; [|discriminate]. injection S as <-. split; [apply later_refl|]. split; [|exact LT].
    apply UPD; [intros t' [= _ ->]; apply (NV _ _ _ Er); reflexivity|]. apply UPD; [discriminate|exact NO].
  - destruct (var a d) as [(t, v)|] eqn:Ed; [|discriminate]. destruct (var a r) as [(t', v')|] eqn:Er; [|discriminate].
    destruct (Nat.eqb d r); [injection S as <-; split; [apply later_refl|auto]|].
    destruct (s_end_opt a t v) as [a1| |] eqn:E; cbn [bind] in S; [|discriminate|discriminate].
    destruct (later_end a t v a1 i (NV _ _ _ Ed) E) as (LA & VV & SN).
    injection S as <-. cbn [with_var sw snxt]. split; [exact LA|]. split; [|rewrite SN; exact LT].
    apply UPD; [intros x [= _ ->]; apply (NV _ _ _ Er); reflexivity|]. apply UPD; [discriminate|].
    intros (x & y & Z). rewrite VV in Z. apply NO. exists x, y. exact Z.
  - destruct (var a l) as [(t, v)|] eqn:El; [|discriminate].
    destruct (s_end_opt a t v) as [a1| |] eqn:E; cbn [bind] in S; [|discriminate|discriminate].
    destruct (later_end a t v a1 i (NV _ _ _ El) E) as (LA & VV & SN).
    injection S as <-. cbn [with_var sw snxt]. split; [exact LA|]. split; [|rewrite SN; exact LT].
    apply UPD; [discriminate|]. intros (x & y & Z). rewrite VV in Z. apply NO. exists x, y. exact Z.
  - destruct L as (t & j & El & _ & An). rewrite El in S. injection S as <-. split; [|auto].
    assert (j <> i) by (intros ->; apply (NV _ _ _ El); reflexivity). cbn [with_w sw]. unfold on_all.
    eapply later_trans; [apply later_on with (j := j); assumption|]. apply later_announce. assumption.
  - destruct (var a l) as [(t, [j|])|] eqn:El; [|injection S as <-; split; [apply later_refl|auto]|discriminate].
    injection S as <-. split; [|auto]. apply later_stopped. intros ->. apply (NV _ _ _ El). reflexivity.
  - destruct (var a l) as [(t, [j|])|] eqn:El; [| |discriminate]; injection S as <-; (split; [|auto]); cbn [with_w sw].
    + assert (j <> i) by (intros ->; apply (NV _ _ _ El); reflexivity).
      destruct (if skel t then _ else _); [eapply later_one with (e := Used j k)|eapply later_one with (e := Refused)]; ne || tauto.
    + eapply later_one with (e := Refused); ne || tauto.
  - destruct (var a l) as [(t, [j|])|] eqn:El; [| |discriminate]; injection S as <-; (split; [|auto]); cbn [with_w sw].
    + assert (j <> i) by (intros ->; apply (NV _ _ _ El); reflexivity).
      destruct (if skel t then _ else _); [eapply later_one with (e := Took j k)|eapply later_one with (e := Refused)]; ne || tauto.
    + eapply later_one with (e := Refused); ne || tauto.
  - injection S as <-. split; [|auto]. assert (j <> i) by (intros ->; rewrite NH in L; lia).
    eapply later_one with (e := Gave j k); ne.
  - destruct (var a l) as [(t, [j|])|] eqn:El; [|discriminate|discriminate]. injection S as <-. split; [|auto]. cbn [with_w sw].
    assert (j <> i) by (intros ->; apply (NV _ _ _ El); reflexivity).
    destruct (act (sw a) j k); [apply later_refl|]. eapply later_one with (e := On j k); ne.
  - destruct (var a l) as [(t, [j|])|] eqn:El; [|discriminate|discriminate].
    assert (j <> i) by (intros ->; apply (NV _ _ _ El); reflexivity).
    destruct (act (sw a) j k); [|injection S as <-; split; [apply later_refl|auto]].
    destruct (Nat.ltb _ _); [discriminate|]. injection S as <-. split; [|auto]. eapply later_one with (e := Off j k); ne.
  - destruct (var a l) as [(t, [j|])|] eqn:El; [|discriminate|discriminate].
    assert (j <> i) by (intros ->; apply (NV _ _ _ El); reflexivity).
    injection S as <-. split; [|auto]. eapply later_one with (e := HandlerSet j k); ne.
  - injection S as <-. destruct (Nat.eq_dec j i) as [->|N].
    + rewrite NS. cbn [andb]. split; [apply later_refl|auto].
    + destruct (_ && _); (split; [|auto]); [|apply later_refl]. eapply later_one with (e := Called j k); ne.
Qed.

Lemma silent_run traced os : forall a a' i, Inv a -> legal_run traced a os -> s_run a os = Ok a' ->
  i < snxt a -> ~ owner_of a i -> later i (sw a) (sw a') /\ ~ owner_of a' i.
Proof.
  induction os as [|o r IH]; intros a a' i V L E LT NO; cbn [s_run] in E.
  - injection E as <-. split; [apply later_refl|exact NO].
  - destruct L as (L & Lr). destruct (s_step a o) as [a1| |] eqn:S; cbn [bind] in E; [|discriminate|discriminate].
    destruct (silent_step traced a o a1 i V L S LT NO) as (A & B & C).
    destruct (IH a1 a' i (inv_step _ _ _ _ V L S) (Lr a1 eq_refl) E C B) as (A' & B').
    split; [eapply later_trans; eassumption|exact B'].
Qed.

(** When the variable [l] that holds service [i] is destroyed, or [r] is move-assigned to
    it, everything of [i] has stopped, and nothing is ever heard of [i] again:
    no announcement, no sample, no handler call, whatever happens afterwards. *)
Theorem C108_ended_is_over : forall traced os l t i o os2 s s2,
  (o = Destroy l \/ exists r, r <> l /\ o = MoveAssign l r) ->
  legal_run traced a0 (os ++ o :: os2) ->
  (exists a, s_run a0 os = Ok a /\ var a l = Some (t, Some i)) ->
  run traced s0 (os ++ [o]) = Ok s -> run traced s0 (os ++ o :: os2) = Ok s2 ->
  ann (wd s) i = false /\ (forall k, k < nel t -> act (wd s) i k = false) /\ (forall k, held (wd s) i k = 0) /\
  later i (wd s) (wd s2).
Proof.
  intros traced os l t i o os2 s s2 Ho L (a & E & El) F F2.
  change (o :: os2) with ([o] ++ os2) in *. rewrite app_assoc in L, F2.
  pose proof (C108_as_if_never_moved_partial _ _ L) as P2.
  apply legal_run_app in L. destruct L as (L1 & L2).
  pose proof (C108_as_if_never_moved_partial _ _ L1) as P1.
  destruct (s_run a0 (os ++ [o])) as [a1| |] eqn:E1; [|congruence|destruct P1].
  destruct P1 as (s' & F' & W). rewrite F in F'. injection F' as <-.
  destruct (s_run a0 ((os ++ [o]) ++ os2)) as [a2| |] eqn:E2; [|congruence|destruct P2].
  destruct P2 as (s' & F' & W2). rewrite F2 in F'. injection F' as <-.
  rewrite s_run_app, E1 in E2. cbn [bind] in E2. rewrite s_run_app, E in E1. cbn [bind s_run] in E1.
  pose proof L1 as L1'. apply legal_run_app in L1'. destruct L1' as (L0 & L1'). specialize (L1' a E). destruct L1' as (LO & _).
  destruct (s_step a o) as [ax| |] eqn:SO; cbn [bind] in E1; [|discriminate|discriminate]. injection E1 as ->.
  pose proof (reach _ _ _ L0 E) as V. pose proof (inv_step _ _ _ _ V LO SO) as V1.
  assert (K : ann (sw a1) i = false /\ (forall k, k < nel t -> act (sw a1) i k = false) /\ (forall k, held (sw a1) i k = 0) /\
              ~ owner_of a1 i /\ snxt a1 = snxt a).
  { assert (KE : forall b, s_end a t i = Ok b -> ann (sw b) i = false /\ (forall k, k < nel t -> act (sw b) i k = false) /\
                (forall k, held (sw b) i k = 0) /\ var b = var a /\ snxt b = snxt a).
    { intros b SE. destruct (inv_end a l t i b V El SE) as (V' & VV & SN & A & H & _ & WW).
      split; [exact A|]. split; [|auto]. intros k Lk. rewrite WW. apply stopped_act; [|exact Lk].
      intros ST AN. rewrite (v_skel a V l t i k El ST Lk). exact AN. }
    destruct Ho as [->|(r & NR & ->)]; cbn [s_step] in SO; rewrite El in SO; cbn [s_end_opt] in SO.
    - destruct (s_end a t i) as [b| |] eqn:SE; cbn [bind] in SO; [|discriminate|discriminate].
      injection SO as <-. destruct (KE b eq_refl) as (A & B & C & D & SN). cbn [with_var sw snxt].
      split; [exact A|]. split; [exact B|]. split; [exact C|]. split; [|exact SN].
      intros (l' & t' & Z). rewrite var_upd, D in Z. destruct (Nat.eqb_spec l' l) as [->|N]; [discriminate|].
      apply N. eapply (v_uniq a V); eassumption.
    - cbn [legal] in LO. destruct LO as (t1 & v1 & v' & Q1 & Q2 & _). rewrite Q2 in SO.
      destruct (Nat.eqb_spec l r) as [->|_]; [congruence|].
      destruct (s_end a t i) as [b| |] eqn:SE; cbn [bind] in SO; [|discriminate|discriminate].
      injection SO as <-. destruct (KE b eq_refl) as (A & B & C & D & SN). cbn [with_var sw snxt].
      split; [exact A|]. split; [exact B|]. split; [exact C|]. split; [|exact SN].
      intros (l' & t' & Z). rewrite !var_upd, D in Z. destruct (Nat.eqb_spec l' l) as [->|N].
      + injection Z as -> ->. apply NR. eapply (v_uniq a V); eassumption.
      + destruct (Nat.eqb_spec l' r) as [->|]; [discriminate|]. apply N. eapply (v_uniq a V); eassumption. }
  destruct K as (A & B & C & D & SN). rewrite W, W2. split; [exact A|]. split; [exact B|]. split; [exact C|].
  apply (silent_run traced os2 a1 a2 i V1); [apply L2; reflexivity|exact E2| |exact D].
  rewrite SN. eapply (v_lt a V); eassumption.
Qed.

(** ** swapping two objects *)
Definition swap_ops (x y tmp : nat) : list op :=
  [MoveCtor tmp x; MoveAssign x y; MoveAssign y tmp; Destroy tmp].

(** std::swap of two objects: nothing is heard of it outside, both services go on, and
    each variable now holds the other's service. *)
Theorem C108_swap : forall traced os a x y tmp t i j,
  legal_run traced a0 os -> s_run a0 os = Ok a ->
  var a x = Some (t, Some i) -> var a y = Some (t, Some j) -> x <> y -> var a tmp = None ->
  may_move traced a t (Some i) -> may_move traced a t (Some j) ->
  exists s s' a', run traced s0 os = Ok s /\ run traced s0 (os ++ swap_ops x y tmp) = Ok s' /\ wd s' = wd s /\
    s_run a0 (os ++ swap_ops x y tmp) = Ok a' /\ legal_run traced a0 (os ++ swap_ops x y tmp) /\
    forall l, var a' l = if Nat.eqb l x then Some (t, Some j) else if Nat.eqb l y then Some (t, Some i) else var a l.
Proof.
  intros traced os a x y tmp t i j L E Ex Ey N Et Mi Mj.
  pose proof (C108_as_if_never_moved_partial traced os L) as P. rewrite E in P. destruct P as (s & F & W).
  assert (Nx : tmp <> x) by congruence. assert (Ny : tmp <> y) by congruence.
  assert (SR : exists a', s_run a (swap_ops x y tmp) = Ok a' /\ sw a' = sw a /\
     legal_run traced a (swap_ops x y tmp) /\
     forall l, var a' l = if Nat.eqb l x then Some (t, Some j) else if Nat.eqb l y then Some (t, Some i) else var a l).
  { set (b1 := with_var (with_var a x (Some (t, None))) tmp (Some (t, Some i))).
    assert (S1 : s_step a (MoveCtor tmp x) = Ok b1) by (cbn [s_step]; rewrite Ex; reflexivity).
    assert (V1 : forall l, var b1 l = if Nat.eqb l tmp then Some (t, Some i) else if Nat.eqb l x then Some (t, None) else var a l) by reflexivity.
    assert (X1 : var b1 x = Some (t, None)).
    { rewrite V1, Nat.eqb_refl. destruct (Nat.eqb_spec x tmp); [congruence|reflexivity]. }
    assert (Y1 : var b1 y = Some (t, Some j)).
    { rewrite V1. destruct (Nat.eqb_spec y tmp); [congruence|]. destruct (Nat.eqb_spec y x); [congruence|exact Ey]. }
    set (b2 := with_var (with_var b1 y (Some (t, None))) x (Some (t, Some j))).
    assert (S2 : s_step b1 (MoveAssign x y) = Ok b2).
    { cbn [s_step]. rewrite X1, Y1. destruct (Nat.eqb_spec x y); [contradiction|]. reflexivity. }
    assert (V2 : forall l, var b2 l = if Nat.eqb l x then Some (t, Some j) else if Nat.eqb l y then Some (t, None) else var b1 l) by reflexivity.
    assert (Y2 : var b2 y = Some (t, None)).
    { rewrite V2, Nat.eqb_refl. destruct (Nat.eqb_spec y x); [congruence|reflexivity]. }
    assert (T2 : var b2 tmp = Some (t, Some i)).
    { rewrite V2. destruct (Nat.eqb_spec tmp x); [congruence|]. destruct (Nat.eqb_spec tmp y); [congruence|]. rewrite V1, Nat.eqb_refl. reflexivity. }
    set (b3 := with_var (with_var b2 tmp (Some (t, None))) y (Some (t, Some i))).
    assert (S3 : s_step b2 (MoveAssign y tmp) = Ok b3).
    { cbn [s_step]. rewrite Y2, T2. destruct (Nat.eqb_spec y tmp); [congruence|]. reflexivity. }
    assert (V3 : forall l, var b3 l = if Nat.eqb l y then Some (t, Some i) else if Nat.eqb l tmp then Some (t, None) else var b2 l) by reflexivity.
    assert (T3 : var b3 tmp = Some (t, None)).
    { rewrite V3, Nat.eqb_refl. destruct (Nat.eqb_spec tmp y); [congruence|reflexivity]. }
    set (b4 := with_var b3 tmp None).
    assert (S4 : s_step b3 (Destroy tmp) = Ok b4) by (cbn [s_step]; rewrite T3; reflexivity).
    exists b4. unfold swap_ops. cbn [s_run legal_run]. rewrite S1. cbn [bind]. rewrite S2. cbn [bind]. rewrite S3. cbn [bind]. rewrite S4. cbn [bind].
    split; [reflexivity|]. split; [reflexivity|]. split.
    - split; [cbn [legal]; split; [exact Et|]; exists t, (Some i); auto|]. intros c1 [= <-].
      split; [cbn [legal]; exists t, None, (Some j); split; [exact X1|]; split; [exact Y1|]; split; [congruence|]; intros _; split; [exact Mj|intros _ _ z; discriminate]|].
      rewrite S2. intros c2 [= <-].
      split; [cbn [legal]; exists t, None, (Some i); split; [exact Y2|]; split; [exact T2|]; split; [congruence|]; intros _; split; [exact Mi|intros _ _ z; discriminate]|].
      rewrite S3. intros c3 [= <-].
      split; [cbn [legal]; exists t, None; split; [exact T3|intros _ _ z; discriminate]|]. rewrite S4. intros c4 [= <-]. exact I.
    - intros l. unfold b4. rewrite var_upd. destruct (Nat.eqb_spec l tmp) as [->|Nl].
      + destruct (Nat.eqb_spec tmp x); [congruence|]. destruct (Nat.eqb_spec tmp y); [congruence|]. congruence.
      + rewrite V3, V2, V1. destruct (Nat.eqb_spec l tmp); [contradiction|].
        destruct (Nat.eqb_spec l x) as [->|]; [destruct (Nat.eqb_spec x y); [contradiction|reflexivity]|].
        destruct (Nat.eqb_spec l y) as [->|]; reflexivity. }
  destruct SR as (a' & SR & SW & LL & VV).
  assert (LA : legal_run traced a0 (os ++ swap_ops x y tmp)).
  { apply legal_run_app. split; [exact L|]. intros b Eb. rewrite E in Eb. injection Eb as <-. exact LL. }
  assert (SA : s_run a0 (os ++ swap_ops x y tmp) = Ok a') by (rewrite s_run_app, E; exact SR).
  pose proof (C108_as_if_never_moved_partial traced _ LA) as P. rewrite SA in P. destruct P as (s' & F' & W').
  exists s, s', a'. split; [exact F|]. split; [exact F'|]. split; [rewrite W', SW, W; reflexivity|]. auto.
Qed.

(** ** the restrictions are needed *)
Lemma ok_with {A} (r : res A) (P : A -> Prop) : match r with Ok s => P s | _ => False end -> exists s, r = Ok s /\ P s.
Proof. destruct r as [s| |]; intros H; [exists s; auto|destruct H|destruct H]. Qed.

Definition tskel := mkTy true false 2.
Definition tprox := mkTy false false 1.
Definition gskel := mkTy true true 1.

(** Destroying a GenericSkeleton while it is offered ends the program: unlike the generated
    classes it has no destructor that stops the offer. *)
Theorem C108_generic_skeleton_refuted :
  run false s0 [Create 0 gskel; Offer 0; Destroy 0] = Term /\
  run false s0 [Create 0 gskel; Offer 0; Create 1 gskel; MoveAssign 0 1] = Term /\
  (exists s, run false s0 [Create 0 tskel; Offer 0; Destroy 0] = Ok s /\ ann (wd s) 0 = false).
Proof.
  split; [vm_compute; reflexivity|]. split; [vm_compute; reflexivity|].
  refine (ok_with _ (fun s => _) _). vm_compute. reflexivity.
Qed.

(** If it was offered, stopped and offered again, destroying a GenericSkeleton does not even end the
    program: the check in the binding remembers the first stop, and the service
    stays announced although no object holds it any more. *)
Theorem C108_generic_skeleton_left_announced_refuted :
  exists s a, run false s0 [Create 0 gskel; Offer 0; Stop 0; Offer 0; Destroy 0] = Ok s /\
    ann (wd s) 0 = true /\ (forall l, objs s l = None) /\
    s_run a0 [Create 0 gskel; Offer 0; Stop 0; Offer 0; Destroy 0] = Ok a /\ ann (sw a) 0 = false.
Proof.
  destruct (ok_with (run false s0 [Create 0 gskel; Offer 0; Stop 0; Offer 0; Destroy 0])
    (fun s => ann (wd s) 0 = true /\ forall l, objs s l = None)) as (s & E & A & B).
  { vm_compute. split; [reflexivity|]. intros [|l]; reflexivity. }
  destruct (ok_with (s_run a0 [Create 0 gskel; Offer 0; Stop 0; Offer 0; Destroy 0])
    (fun a => ann (sw a) 0 = false)) as (a & E' & A'); [vm_compute; reflexivity|].
  exists s, a. auto 6.
Qed.

(** A moved-from object of a generated class may be destroyed or assigned to, but not moved again:
    std::swap with a moved-from object, say, writes through a null pointer
    (reference_to_moveable.h:137-140). *)
Theorem C108_moved_twice_refuted :
  run false s0 [Create 0 tprox; MoveCtor 1 0; MoveCtor 2 0] = UB /\
  run false s0 ([Create 0 tprox; MoveCtor 1 0] ++ swap_ops 0 1 2) = UB /\
  (exists s, run false s0 [Create 0 tprox; MoveCtor 1 0; MoveAssign 0 1; Destroy 1; Destroy 0] = Ok s).
Proof.
  split; [vm_compute; reflexivity|]. split; [vm_compute; reflexivity|].
  destruct (ok_with (run false s0 [Create 0 tprox; MoveCtor 1 0; MoveAssign 0 1; Destroy 1; Destroy 0]) (fun _ => True)) as (s & E & _);
    [vm_compute; exact I|exists s; exact E].
Qed.

(** With tracing of receive handlers, a handler registered before a proxy of a generated class is
    moved keeps a reference to the tracing data inside the old object
    (tracing/proxy_event_tracing.cpp:424-428): once that is destroyed the next
    notification reads freed memory.  Without tracing the same history is fine. *)
Theorem C108_traced_handler_refuted :
  run true s0 [Create 0 tprox; SetHandler 0 0; Subscribe 0 0; MoveCtor 1 0; Destroy 0; Notify 0 0] = UB /\
  (exists s, run false s0 [Create 0 tprox; SetHandler 0 0; Subscribe 0 0; MoveCtor 1 0; Destroy 0; Notify 0 0] = Ok s /\
     hd_error (log (wd s)) = Some (Called 0 0)).
Proof. split; [vm_compute; reflexivity|]. refine (ok_with _ (fun s => _) _). vm_compute. reflexivity. Qed.

(** Offering a moved-from skeleton, or fetching from a moved-from proxy, uses a null binding;
    sending on a moved-from skeleton is refused. *)
Theorem C108_moved_from_use_refuted :
  run false s0 [Create 0 tskel; MoveCtor 1 0; Offer 0] = UB /\
  run false s0 [Create 0 tprox; MoveCtor 1 0; Use 0 0] = UB /\
  (exists s, run false s0 [Create 0 tskel; Offer 0; MoveCtor 1 0; Use 0 1; Use 1 1] = Ok s /\
     firstn 2 (log (wd s)) = [Used 0 1; Refused]).
Proof.
  split; [vm_compute; reflexivity|]. split; [vm_compute; reflexivity|].
  refine (ok_with _ (fun s => _) _). vm_compute. reflexivity.
Qed.

(** ** non-vacuity: a legal history with every kind of operation *)
Definition story : list op :=
  [Create 0 tskel; Create 1 tskel; Offer 0; Offer 1; Use 0 1; Take 1 0; MoveCtor 2 0; MoveAssign 0 1; MoveAssign 1 2;
   Destroy 2; Use 0 0; Use 1 0; Give 1 0; Stop 1; Destroy 1; Create 5 tprox; Subscribe 5 0; MoveCtor 6 5; SetHandler 6 0;
   Notify 2 0; Destroy 5; Destroy 6; Destroy 0].

Lemma legal_b_sound traced a o :
  match o with
  | Create l t => match var a l with None => True | _ => False end
  | MoveCtor d r => match var a d, var a r with None, Some (t, Some i) => traced = false | _, _ => False end
  | MoveAssign d r => match var a d, var a r with
      | Some (t, v), Some (t', Some i) => t = t' /\ d <> r /\ traced = false /\ gen t = false | _, _ => False end
  | Destroy l => match var a l with Some (t, v) => gen t = false | _ => False end
  | Offer l => match var a l with Some (t, Some i) => skel t = true /\ ann (sw a) i = false | _ => False end
  | Stop l => match var a l with Some (t, _) => skel t = true | _ => False end
  | Use l k | Take l k => match var a l with Some (t, Some i) => k < nel t | _ => False end
  | Give i k => 0 < held (sw a) i k
  | Subscribe l k | Unsubscribe l k | SetHandler l k =>
    match var a l with Some (t, Some i) => skel t = false /\ k < nel t | _ => False end
  | Notify _ _ => True
  end -> legal traced a o.
Proof.
  destruct o as [l t|d r|d r|l|l|l|l k|l k|i k|l k|l k|l k|i k]; cbn [legal].
  - destruct (var a l); tauto.
  - destruct (var a d) as [[? ?]|]; [tauto|]. destruct (var a r) as [(t, [i|])|]; try tauto. intros ->.
    split; [reflexivity|]. exists t, (Some i). split; [reflexivity|]. split; [congruence|discriminate].
  - destruct (var a d) as [(t, v)|]; [|tauto]. destruct (var a r) as [(t', [i|])|]; try tauto.
    intros (<- & N & -> & G). exists t, v, (Some i). split; [reflexivity|]. split; [reflexivity|].
    split; [contradiction|]. intros _. split; [split; [congruence|discriminate]|]. intros _ X. congruence.
  - destruct (var a l) as [(t, v)|]; [|tauto]. intros G. exists t, v. split; [reflexivity|]. intros _ X. congruence.
  - destruct (var a l) as [(t, [i|])|]; try tauto. intros (A & B). eauto 6.
  - destruct (var a l) as [(t, v)|]; try tauto. eauto.
  - destruct (var a l) as [(t, [i|])|]; try tauto. intros A. exists t, (Some i). split; [reflexivity|]. split; [exact A|discriminate].
  - destruct (var a l) as [(t, [i|])|]; try tauto. intros A. exists t, (Some i). split; [reflexivity|]. split; [exact A|discriminate].
  - tauto.
  - destruct (var a l) as [(t, [i|])|]; try tauto. intros (A & B). eauto 6.
  - destruct (var a l) as [(t, [i|])|]; try tauto. intros (A & B). eauto 6.
  - destruct (var a l) as [(t, [i|])|]; try tauto. intros (A & B). eauto 6.
  - tauto.
Qed.

Example C108_story_legal : legal_run false a0 story /\ exists a, s_run a0 story = Ok a.
Proof.
  split; [|eexists; vm_compute; reflexivity].
  unfold story.
  repeat (cbn [legal_run]; split;
    [apply legal_b_sound; vm_compute; repeat split; try congruence; try lia
    |let b := fresh in let E := fresh in intros b E; vm_compute in E; injection E as <-]).
  exact I.
Qed.

Example C108_swap_applies :
  exists a, s_run a0 [Create 0 tskel; Create 1 tskel; Offer 0; Offer 1] = Ok a /\
    var a 0 = Some (tskel, Some 0) /\ var a 1 = Some (tskel, Some 1) /\ var a 7 = None /\
    may_move true a tskel (Some 0) /\ may_move true a tskel (Some 1).
Proof.
  eexists. split; [vm_compute; reflexivity|]. split; [reflexivity|]. split; [reflexivity|]. split; [reflexivity|].
  split; (split; [discriminate|intros _ _ X; discriminate X]).
Qed.

Print Assumptions C108_as_if_never_moved_partial.
Print Assumptions C108_announced_has_one_owner.
Print Assumptions C108_withdrawn_exactly_once.
Print Assumptions C108_ended_is_over.
Print Assumptions C108_swap.
Print Assumptions C108_generic_skeleton_refuted.
Print Assumptions C108_generic_skeleton_left_announced_refuted.
Print Assumptions C108_moved_twice_refuted.
Print Assumptions C108_traced_handler_refuted.
Print Assumptions C108_moved_from_use_refuted.
