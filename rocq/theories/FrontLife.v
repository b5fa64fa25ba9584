(** One caller takes each search out, the destructor it may run, and the order of the two mutexes. *)
From Verif Require Import Base FrontModel FrontSpec FrontProof FrontInv.

Definition isE (h : nat) (f : frame) : bool :=
  match f with FStop3 h' _ true | FStop4 h' _ | FStop6 h' _ => Nat.eqb h h' | _ => false end.
Fixpoint dd (U : list nat) (l : list frame) : Prop :=
  match l with
  | [] => True
  | f :: r => (match f, r with FDtor h, FStop3 _ _ b :: _ => b = true \/ In h U | _, _ => True end) /\ dd U r
  end.
Lemma dd_mono U U' l : incl U U' -> dd U l -> dd U' l.
Proof.
  intros I. induction l as [|f r IH]; cbn; auto. intros [A B]. split; auto. destruct f; auto. destruct r as [|[] r]; auto. destruct A; auto.
Qed.
Lemma dd_tl U f r : dd U (f :: r) -> dd U r.
Proof. cbn. tauto. Qed.
Lemma dd_cons U f r : (forall h, f <> FDtor h) -> dd U r -> dd U (f :: r).
Proof. intros N D. cbn. split; auto. destruct f; auto. now destruct (N h). Qed.

Record inv5 (s : st) : Prop := {
  k_one : forall h t, cnt (isE h) (stk s t) <= 1;
  k_uni : forall h t t', 0 < cnt (isE h) (stk s t) -> 0 < cnt (isE h) (stk s t') -> t = t';
  k_dd : forall t, dd (unres s) (stk s t)
}.

Lemma isE_insts s t h : inv4 s -> 0 < cnt (isE h) (stk s t) -> ~ In h (insts s).
Proof.
  intros I P. apply cnt_pos in P as (f & F & P). pose proof (j_s _ I t f F) as A. pose proof (j_n _ I t f F) as B.
  destruct f; cbn in P; try discriminate; try (destruct b; [|discriminate]); apply Nat.eqb_eq in P; subst h0; destruct i; cbn in *; try tauto;
    destruct A as [[] _]; auto.
Qed.

Lemma inv5_le s t s' fs : inv5 s -> stk s' = upd (stk s) t fs -> incl (unres s) (unres s') -> dd (unres s') fs ->
  (forall h, cnt (isE h) fs <= cnt (isE h) (stk s t)) -> inv5 s'.
Proof.
  intros [A B C] E EU D L.
  assert (EA : forall h x, cnt (isE h) (stk s' x) <= cnt (isE h) (stk s x)).
  { intros h x. rewrite E. unfold upd. destruct (Nat.eqb_spec x t) as [->|]; auto. }
  constructor.
  - intros h x. specialize (EA h x). specialize (A h x). lia.
  - intros h x x' P P'. apply (B h); [specialize (EA h x)|specialize (EA h x')]; lia.
  - intros x. rewrite E. unfold upd. destruct (x =? t); auto. eapply dd_mono; eauto.
Qed.

Lemma inv5_tr s t s' : inv1 s -> inv4 s -> inv5 s -> tr s t s' -> inv5 s'.
Proof.
  intros I1 I4 R T. pose proof (k_dd _ R t) as D. pose proof (i_wf _ I1 t) as WF.
  destruct T as [f r b E U|f r h E U K|h r E|h r E|h b r m E L|h r m E L|h r m E L|h ok fo r m E L|h r m E L|h r m E L|h i r m E L|h i r m E L|h i r m E L|h i r m E L|h i r m E L|r m E L|r m E L|h r E K NK];
    rewrite E in D;
    try (eapply (inv5_le s t); [exact R|cbn; reflexivity|apply incl_refl| |];
      [cbn [set_stk set_mc set_mw unres store returned transfer stop_returned obsolete enter_stop]; try (apply dd_cons; [discriminate|]); eauto using dd_tl
      |intros x; rewrite E; rewrite ?cnt_cons; cbn -[cnt]; lia]).
  - eapply (inv5_le s t); [exact R|cbn; reflexivity| | |].
    + cbn. destruct b; [apply incl_refl|apply incl_tl, incl_refl].
    + apply dd_cons; [discriminate|]. eapply dd_mono; [|exact D]. cbn. destruct b; [apply incl_refl|apply incl_tl, incl_refl].
    + intros x. rewrite E, !cnt_cons. cbn -[cnt]. lia.
  - eapply (inv5_le s t); [exact R|unfold drop; cbn; reflexivity|apply incl_refl| |].
    + unfold drop. cbn [unres]. rewrite E in WF. cbn in WF. destruct (_ && _); [|eauto using dd_tl]. cbn. split; [|eapply dd_tl; eauto].
      destruct r as [|[] r]; auto. tauto.
    + intros x. rewrite E. destruct (_ && _); rewrite !cnt_cons; cbn -[cnt]; lia.
  - destruct (register_cases (set_mw s m) t h ok fo r) as (fs & Q1 & Q2 & Q3 & Q4 & Q5).
    eapply (inv5_le s t); [exact R|exact Q1|rewrite Q4; apply incl_refl| |].
    + rewrite Q4. cbn [set_mw unres]. destruct Q5 as [->|[_ ->]]; repeat (apply dd_cons; [discriminate|]); eauto using dd_tl.
    + intros x. rewrite E. destruct Q5 as [->|[_ ->]]; rewrite ?cnt_cons; cbn -[cnt]; lia.
  - destruct (mem h (insts s)) eqn:M.
    + (* this caller takes the search out *)
      destruct R as [A B C].
      assert (Z : forall x, cnt (isE h) (stk s x) = 0).
      { intros x. destruct (cnt (isE h) (stk s x)) eqn:Q; auto. exfalso. apply mem_In in M. apply (isE_insts s x h I4); [lia|auto]. }
      assert (EA : forall k x, cnt (isE k) (stk (erase (set_mc s m) t h i r) x) = cnt (isE k) (stk s x) + if Nat.eqb k h && Nat.eqb x t then 1 else 0).
      { intros k x. unfold erase. cbn -[cnt mem]. rewrite M. unfold upd. destruct (Nat.eqb_spec x t) as [->|]; [|rewrite andb_false_r; lia].
        rewrite E. destruct (_ && (refs s h =? 0)); rewrite !cnt_cons; cbn -[cnt]; rewrite andb_true_r; lia. }
      constructor.
      * intros k x. rewrite EA. specialize (A k x). destruct (Nat.eqb_spec k h) as [->|]; [rewrite Z|]; cbn; destruct (x =? t); lia.
      * intros k x x'. rewrite !EA. destruct (Nat.eqb_spec k h) as [->|]; [rewrite !Z|]; cbn.
        -- destruct (Nat.eqb_spec x t), (Nat.eqb_spec x' t); subst; auto; lia.
        -- intros P P'. apply (B k); lia.
      * intros x. unfold erase. cbn -[mem dd]. rewrite M. unfold upd. destruct (x =? t); [|apply C].
        apply dd_tl in D. destruct (_ && _); cbn; auto.
    + eapply (inv5_le s t); [exact R|unfold erase; cbn -[mem]; rewrite M; reflexivity|apply incl_refl| |].
      * unfold erase. cbn -[mem dd]. apply dd_tl in D. destruct (mem h (stored s) && _) eqn:LAST; [|cbn; auto].
        cbn. split; auto. right. apply andb_prop in LAST as [ST _]. apply mem_In in ST. apply mem_nIn in M.
        destruct (g_si _ _ (j_g _ I4 h) ST); auto. contradiction.
      * intros x. rewrite E. destruct (_ && _); rewrite !cnt_cons; cbn -[cnt]; lia.
  - destruct (invoke_cases s t h (FEv :: r)) as (fs & Q1 & Q2 & Q3 & Q4 & Q5).
    eapply (inv5_le s t); [exact R|exact Q1|rewrite Q4; apply incl_refl| |].
    + rewrite Q4. destruct Q5 as [->| ->]; repeat (apply dd_cons; [discriminate|]); eauto using dd_tl.
    + intros x. rewrite E. destruct Q5 as [->| ->]; rewrite ?cnt_cons; cbn -[cnt]; lia.
Qed.

Record inv (s : st) : Prop := { i1 : inv1 s; i2 : inv2 s; i3 : inv3 s; i4 : inv4 s; i5 : inv5 s }.
Lemma inv_init : inv init.
Proof.
  constructor; [apply inv1_init|intros h; reflexivity| |apply inv4_init|].
  - constructor; cbn; intros h [|t]; cbn; auto; try lia; intros [|]; cbn; lia.
  - constructor; cbn; [intros h [|t]; cbn; auto|intros h [|t] [|t']; cbn; lia|intros [|t]; cbn; auto].
Qed.
Lemma inv_step s t a s' : inv s -> step s t a = Some s' -> inv s'.
Proof.
  intros [A B C D E] H. apply step_tr in H. constructor;
    [eapply inv1_tr|eapply inv2_tr|eapply inv3_tr|eapply inv4_tr|eapply inv5_tr]; eauto.
Qed.
Lemma reach_inv ok s : reach ok s -> inv s.
Proof. induction 1; [apply inv_init|eapply inv_step; eauto]. Qed.
Lemma run_inv ls s s' : inv s -> run s ls = Some s' -> inv s'.
Proof.
  revert s. induction ls as [|[t a] ls IH]; cbn; intros s I H; [injection H as <-; auto|].
  destruct (step s t a) as [s1|] eqn:E; [|discriminate]. apply (IH s1); auto. eapply inv_step; eauto.
Qed.
Lemma run_reach ls s s' : reach anything s -> run s ls = Some s' -> reach anything s'.
Proof.
  revert s. induction ls as [|[t a] ls IH]; cbn; intros s I H; [injection H as <-; auto|].
  destruct (step s t a) as [s1|] eqn:E; [|discriminate]. apply (IH s1); auto. eapply r_step; eauto. exact Logic.I.
Qed.

(** ** Orderly destruction: container_mutex_ is held only at the top of a stack. *)
Fixpoint calm (l : list frame) : Prop :=
  match l with
  | [] => True
  | f :: r => match r with FDtor _ :: FStop3 _ _ _ :: _ => False | _ => True end /\ calm r
  end.

Lemma calm_noC f r : wf (f :: r) -> calm (f :: r) -> cnt hC r = 0 \/ exists h i b r', f = FDtor h /\ r = FStop3 h i b :: r' /\ cnt hC r' = 0.
Proof.
  revert f. induction r as [|g r IH]; [left; reflexivity|]. intros f W Q.
  assert (Wr : wf (g :: r)) by (destruct f; cbn in W; try discriminate; tauto).
  assert (Qr : calm (g :: r)) by (apply Q).
  destruct (IH g Wr Qr) as [Z|(h & i & b & r' & -> & -> & Z)]; [|cbn in Q; tauto].
  rewrite cnt_cons. destruct (hC g) eqn:HG; [|left; exact Z]. right.
  destruct g; try discriminate.
  - exfalso. destruct f; cbn in W; try discriminate; try tauto; destruct W; discriminate.
  - destruct f; cbn in W; try discriminate; try tauto; try (destruct W; discriminate). destruct W as [-> _]. exists h0, i, b, r. auto.
Qed.

Definition calm_all (s : st) : Prop := forall t, calm (stk s t).
Lemma calm_upd s t fs : calm_all s -> calm fs -> forall x, calm (upd (stk s) t fs x).
Proof. intros C F x. unfold upd. destruct (x =? t); auto. Qed.

Lemma calm_swap f g r : calm (f :: r) -> calm (g :: r).
Proof. cbn. auto. Qed.
Lemma calm_tl f r : calm (f :: r) -> calm r.
Proof. cbn. tauto. Qed.
Lemma calm_push f g r : (match g with FDtor _ => False | _ => True end) -> calm (g :: r) -> calm (f :: g :: r).
Proof. intros A B. split; auto. destruct g; auto. contradiction. Qed.
Lemma calm_step s t a s' : inv1 s -> calm_all s -> quiet_destruction s t a -> step s t a = Some s' -> calm_all s'.
Proof.
  intros I C Q H. pose proof (C t) as Ct. pose proof (i_wf _ I t) as Wt.
  unfold step in H. destruct (stk s t) as [|f r] eqn:E; [discriminate|].
  assert (TOP : match a with AStart _ | AStop _ => True | _ => False end -> match f, r with FDtor _, FStop3 _ _ _ :: _ => False | _, _ => True end).
  { intros A. destruct f; auto. destruct r as [|[] r]; auto. destruct a; try contradiction; apply Q; repeat eexists; eauto. }
  assert (P : match a with AStart _ | AStop _ => True | _ => False end -> forall g, calm (g :: f :: r)).
  { intros A g. specialize (TOP A). split; auto. }
  assert (LIB : lib_step s t f r a = Some s' -> match a with AStart _ | AStop _ => True | _ => False end \/ calm_all s').
  { clear P TOP Q. intros H'. destruct f, a; try discriminate; auto; right; cbn in H';
      repeat match type of H' with
      | option_map _ ?x = Some _ => let m := fresh "m" in destruct x as [m|] eqn:?; [|discriminate]; cbn in H'
      | (if ?b then _ else None) = Some _ => destruct b eqn:?; [|discriminate]
      end; injection H' as <-.
    - unfold drop. intros x. cbn [stk]. apply calm_upd; auto. destruct (_ && _); eauto using calm_swap, calm_tl.
    - intros x. cbn. apply calm_upd; eauto using calm_tl.
    - intros x. cbn. apply calm_upd; eauto using calm_swap.
    - destruct r0; intros x; cbn; apply calm_upd; eauto using calm_swap, calm_tl.
    - destruct (register_cases (set_mw s m) t h ok found r) as (fs & Q1 & Q2 & Q3 & Q4 & Q5). intros x. rewrite Q1. apply calm_upd; auto.
      destruct Q5 as [->|[_ ->]]; eauto using calm_swap. apply calm_push; auto.
    - destruct ok; intros x; cbn; apply calm_upd; eauto using calm_swap, calm_tl.
    - unfold erase. intros x. cbn [stk]. apply calm_upd; auto. destruct (_ && _); [|eauto using calm_swap].
      apply calm_push; [exact Logic.I|]. eauto using calm_swap.
    - destruct b; intros x; cbn; apply calm_upd; eauto using calm_swap, calm_tl.
    - intros x. cbn. apply calm_upd; eauto using calm_swap.
    - intros x. cbn. apply calm_upd; eauto using calm_tl.
    - intros x. cbn. apply calm_upd; eauto using calm_swap.
    - intros x. cbn. apply calm_upd; eauto using calm_swap.
    - destruct (invoke_cases s t h (FEv :: r)) as (fs & Q1 & Q2 & Q3 & Q4 & Q5). intros x. rewrite Q1. apply calm_upd; auto.
      destruct Q5 as [->| ->]; auto. apply calm_push; auto. }
  destruct a; try (destruct (LIB H); [contradiction|auto]).
  - destruct (user f); [|discriminate]. injection H as <-. intros x. cbn. apply calm_upd; auto.
  - destruct (user f && _); [|discriminate]. injection H as <-. intros x. cbn. apply calm_upd; auto.
Qed.

Lemma reach_calm s : reach quiet_destruction s -> calm_all s.
Proof.
  induction 1; [intros [|t]; cbn; auto|]. eapply calm_step; eauto. eapply i1, reach_inv; eauto.
Qed.

(** A thread that is not waiting for a mutex can go on. *)
Lemma not_waiting s t : inv s -> (forall t', ~ waits_for s t t') -> can_go_on s t.
Proof.
  intros I N. destruct (i1 _ I) as [C W CP WP WF]. pose proof (WF t) as Ft. pose proof (C t) as Ct. pose proof (W t) as Wt.
  unfold can_go_on, step. destruct (stk s t) as [|f r] eqn:E; [contradiction|]. rewrite !cnt_cons in Ct, Wt.
  assert (LC : wants s t = Some Cont -> exists m, lock (mc s) t = Some m).
  { intros Wa. unfold lock. destruct (mc s) as [[o n]|] eqn:M; [|eauto]. destruct (Nat.eqb_spec o t) as [->|NE]; [eauto|].
    exfalso. apply (N o). split; auto. exists Cont. split; auto. cbn. now rewrite M. }
  assert (LW : wants s t = Some Work -> exists m, lock (mw s) t = Some m).
  { intros Wa. unfold lock. destruct (mw s) as [[o n]|] eqn:M; [|eauto]. destruct (Nat.eqb_spec o t) as [->|NE]; [eauto|].
    exfalso. apply (N o). split; auto. exists Work. split; auto. cbn. now rewrite M. }
  assert (UL : forall m, 0 < held m t -> exists m', unlock m t = Some m').
  { intros m. unfold held, unlock. destruct m as [[o [|n]]|]; try lia; destruct (o =? t); try lia; eauto. }
  assert (UC : hC f = true -> exists m, unlock (mc s) t = Some m) by (intros Z; apply UL; rewrite Z in Ct; lia).
  assert (UW : hW f = true -> exists m, unlock (mw s) t = Some m) by (intros Z; apply UL; rewrite Z in Wt; lia).
  unfold wants in LC, LW. rewrite E in LC, LW. clear Ct Wt.
  destruct f; cbn in LC, LW, UC, UW;
    try (exists ARet; eexists; reflexivity);
    try (destruct (LC eq_refl) as (m & M); exists AGo; cbn; rewrite M; cbn; eauto; fail);
    try (destruct (UC eq_refl) as (m & M); exists AGo; cbn; rewrite M; cbn; eauto; fail);
    try (destruct (UW eq_refl) as (m & M); exists AGo; cbn; rewrite M; cbn; eauto; fail).
  - exists (AStart true). eexists. reflexivity.
  - destruct (LW eq_refl) as (m & M). exists (AReg true true). cbn. rewrite M. cbn. eauto.
  - destruct (LW eq_refl) as (m & M). exists AGo. cbn. rewrite M. cbn. eauto.
  - destruct (LW eq_refl) as (m & M). exists AGo. cbn. rewrite M. cbn. eauto.
Qed.

(** The owner of container_mutex_ waits for nobody, as long as destruction is quiet. *)
Lemma owner_cont_runs s t : inv s -> calm_all s -> owner s Cont = Some t -> forall t', ~ waits_for s t t'.
Proof.
  intros I Q O t' (NE & m & Wa & Ow). destruct (i1 _ I) as [C W CP WP WF].
  cbn in O. destruct (mc s) as [[o n]|] eqn:M; [|discriminate]. cbn in O. injection O as ->. cbn in CP.
  pose proof (C t) as Ct. cbn in Ct. rewrite Nat.eqb_refl in Ct.
  pose proof (WF t) as Wt. pose proof (Q t) as Qt. unfold wants in Wa. destruct (stk s t) as [|f r] eqn:E; [discriminate|].
  rewrite cnt_cons in Ct. destruct (calm_noC f r Wt Qt) as [Z|(h & i & b & r' & -> & _)]; [|discriminate].
  rewrite Z in Ct. destruct f; try discriminate; cbn in Ct; lia.
Qed.
