(** C84: restarts of consumer processes leave the provider's registrations right. *)
From Verif Require Import Base RestartModel.
From Verif Require MsgModel.
Local Open Scope N_scope.

(** ** Specification vocabulary *)
Definition alive (s : st) (p : N) : Prop := app_of s p <> None.
Definition quiet (s : st) (p : N) : Prop := forall m, ~ In (p, m) (wire s).   (* nothing of p is under way *)
Definition dying_word (s : st) (q : N) : Prop := exists r, In (r, MOutdated q) (wire s).

(** process ids are not reused and an application has one process at a time *)
Definition orderly (s : st) (l : label) : Prop :=
  match l with Start a p => used s p = false /\ (forall q, app_of s q <> Some a) | _ => True end.
(** moreover a process creates its first proxy only when the messages of dead processes have
    arrived or are lost, and does not die before its message about its predecessor has arrived *)
Definition tidy (s : st) (l : label) : Prop :=
  orderly s l /\
  match l with
  | Attach p => forall q m, app_of s q = None -> ~ In (q, m) (wire s)
  | Die p => forall q, ~ In (p, MOutdated q) (wire s)
  | _ => True
  end.

Inductive reach (ok : st -> label -> Prop) : list label -> st -> Prop :=
| reach_nil : reach ok [] init
| reach_snoc ls s l s' : reach ok ls s -> ok s l -> step s l = Some s' -> reach ok (ls ++ [l]) s'.

(** ** Basic facts *)
Lemma nupd_eq {A} (f : N -> A) k v : nupd f k v k = v.
Proof. unfold nupd. rewrite N.eqb_refl. reflexivity. Qed.
Lemma nupd_neq {A} (f : N -> A) k v x : x <> k -> nupd f k v x = f x.
Proof. unfold nupd. intros H. apply N.eqb_neq in H as ->. reflexivity. Qed.

Lemma take_split p w m w' : take p w = Some (m, w') ->
  exists w1 w2, w = w1 ++ (p, m) :: w2 /\ w' = w1 ++ w2 /\ (forall m', ~ In (p, m') w1).
Proof.
  revert m w'; induction w as [|[q m0] r IH]; intros m w' H; cbn [take] in H; [discriminate|].
  destruct (q =? p) eqn:E.
  - apply N.eqb_eq in E as ->. injection H as <- <-. exists [], r. auto.
  - destruct (take p r) as [[m1 r1]|]; [|discriminate]. injection H as <- <-.
    destruct (IH m1 r1 eq_refl) as (w1 & w2 & -> & -> & Hn).
    exists ((q, m0) :: w1), w2. split; [reflexivity|]. split; [reflexivity|].
    intros m' [E'|H']; [injection E' as -> _; rewrite N.eqb_refl in E; discriminate|apply (Hn m' H')].
Qed.

Lemma take_in p w m w' : take p w = Some (m, w') -> In (p, m) w /\ (forall x, In x w' -> In x w).
Proof.
  intros H. destruct (take_split _ _ _ _ H) as (w1 & w2 & -> & -> & _). split; [apply in_or_app; right; left; reflexivity|].
  intros x Hx. apply in_app_or in Hx as [?|?]; apply in_or_app; [left|right; right]; assumption.
Qed.

(** the registration of p once its own messages have arrived *)
Definition eff1 (p : N) (b : bool) (x : N * msg) : bool :=
  if fst x =? p then match snd x with MReg => true | MUnreg => false | MOutdated _ => b end else b.
Definition eff (p : N) (w : list (N * msg)) (b : bool) : bool := fold_left (eff1 p) w b.

Lemma eff_app p w1 w2 b : eff p (w1 ++ w2) b = eff p w2 (eff p w1 b).
Proof. apply fold_left_app. Qed.
Lemma eff_cons p x w b : eff p (x :: w) b = eff p w (eff1 p b x).
Proof. reflexivity. Qed.
Lemma eff_none p w b : (forall m, ~ In (p, m) w) -> eff p w b = b.
Proof.
  revert b; induction w as [|[q m] r IH]; intros b H; cbn; [reflexivity|].
  unfold eff1 at 2; cbn [fst snd]. destruct (q =? p) eqn:E.
  - apply N.eqb_eq in E as ->. exfalso. apply (H m). left; reflexivity.
  - apply IH. intros m' Hm. apply (H m'). right; assumption.
Qed.

(** ** The invariant of orderly histories *)
Record inv (ls : list label) (s : st) : Prop := mkInv {
  i_live : forall p a, app_of s p = Some a -> used s p = true /\ In (Start a p) ls;
  i_one : forall p q a, app_of s p = Some a -> app_of s q = Some a -> p = q;
  i_wire : forall p m, In (p, m) (wire s) -> used s p = true;
  i_out : forall r q, In (r, MOutdated q) (wire s) -> used s q = true /\ app_of s q = None;
  i_rec : forall a q, recorded s a = Some q -> used s q = true /\ (forall b, app_of s q = Some b -> b = a) /\ In (Start a q) ls;
  i_tab : forall p, table s p = true -> used s p = true;
  i_eff : forall p, app_of s p <> None -> eff p (wire s) (table s p) = wants s p;
  i_att : forall p a, app_of s p = Some a -> attached s p = true -> recorded s a = Some p;
  i_start : forall a p, In (Start a p) ls -> used s p = true;
  i_want : forall p, app_of s p <> None -> wants s p = true -> attached s p = true
}.

Lemma in_snoc {A} (x : A) l y : In x (l ++ [y]) <-> In x l \/ x = y.
Proof. rewrite in_app_iff. cbn [In]. intuition congruence. Qed.

Lemma table_other t p m q : (forall r, m = MOutdated r -> r <> q) -> p <> q -> table_step t p m q = t q.
Proof. intros H Hp. destruct m; cbn [table_step]; apply nupd_neq; [congruence|congruence|]. intros ->. apply (H pid eq_refl). reflexivity. Qed.

Lemma inv_step ls s l s' : inv ls s -> orderly s l -> step s l = Some s' -> inv (ls ++ [l]) s'.
Proof.
  intros [Hl H1 Hw Ho Hr Ht He Ha Hs Hwa] OK S.
  destruct l as [a p|p|p|p|p|p|p]; cbn [step orderly] in *.
  - (* Start *)
    destruct OK as (Hu & Hn). destruct (app_of s p) eqn:Ep; [discriminate|]. injection S as <-.
    assert (Hne : forall q, used s q = true -> q <> p) by (intros q Hq ->; congruence).
    assert (Hup : forall q, used s q = true -> nupd (used s) p true q = true).
    { intros q Hq. rewrite nupd_neq by auto. assumption. }
    constructor; cbn [app_of used attached wants recorded wire table].
    + intros q b. destruct (N.eq_dec q p) as [->|Hq].
      * rewrite !nupd_eq. intros E; injection E as ->. split; [reflexivity|]. apply in_snoc; auto.
      * rewrite !nupd_neq by assumption. intros E. destruct (Hl _ _ E). split; [assumption|]. apply in_snoc; auto.
    + intros q r b. destruct (N.eq_dec q p) as [->|Hq], (N.eq_dec r p) as [->|Hr'];
        rewrite ?nupd_eq, ?nupd_neq by assumption; intros E1 E2; try reflexivity.
      * injection E1 as <-. exfalso; apply (Hn _ E2).
      * injection E2 as <-. exfalso; apply (Hn _ E1).
      * eapply H1; eassumption.
    + intros q m Hin. apply Hup. eapply Hw; eassumption.
    + intros r q Hin. destruct (Ho r q Hin) as (U & D). split; [apply Hup; assumption|]. rewrite nupd_neq by auto. assumption.
    + intros b q E. destruct (Hr b q E) as (U & O & I1). split; [apply Hup; assumption|]. split; [|apply in_snoc; auto].
      intros c. rewrite nupd_neq by auto. apply O.
    + intros q Hq. apply Hup, Ht, Hq.
    + intros q. destruct (N.eq_dec q p) as [->|Hq].
      * intros _. rewrite nupd_eq. rewrite eff_none; [|intros m Hm; rewrite (Hw _ _ Hm) in Hu; discriminate].
        destruct (table s p) eqn:T; [|reflexivity]. rewrite (Ht _ T) in Hu; discriminate.
      * rewrite !nupd_neq by assumption. apply He.
    + intros q b. destruct (N.eq_dec q p) as [->|Hq]; [rewrite !nupd_eq; discriminate|].
      rewrite !nupd_neq by assumption. apply Ha.
    + intros b q Hin. apply in_snoc in Hin as [Hin|E]; [apply Hup; eapply Hs; eassumption|].
      injection E as -> ->. apply nupd_eq.
    + intros q. destruct (N.eq_dec q p) as [->|Hq]; [rewrite !nupd_eq; discriminate|].
      rewrite !nupd_neq by assumption. apply Hwa.
  - (* Attach *)
    destruct (app_of s p) as [a|] eqn:Ep; [|discriminate]. destruct (attached s p) eqn:At; [discriminate|]. injection S as <-.
    set (w := match recorded s a with Some q => if q =? p then wire s else wire s ++ [(p, MOutdated q)] | None => wire s end).
    assert (W : forall x, In x w -> In x (wire s) \/ exists q, recorded s a = Some q /\ q <> p /\ x = (p, MOutdated q)).
    { intros x. unfold w. destruct (recorded s a) as [q|] eqn:R; [|tauto]. destruct (q =? p) eqn:E; [tauto|].
      rewrite in_snoc. intros [? | ->]; [tauto|]. right. exists q. apply N.eqb_neq in E. auto. }
    assert (WE : forall q b, eff q w b = eff q (wire s) b).
    { intros q b. unfold w. destruct (recorded s a) as [r|]; [|reflexivity]. destruct (r =? p); [reflexivity|].
      rewrite eff_app. cbn. unfold eff1; cbn [fst snd]. destruct (p =? q); reflexivity. }
    constructor; cbn [app_of used attached wants recorded wire table]; try (assumption); clearbody w.
    + intros q b E. destruct (Hl q b E). split; [assumption|apply in_snoc; auto].
    + intros q m Hin. destruct (W _ Hin) as [?|(r & _ & _ & E)]; [eapply Hw; eassumption|]. injection E as -> ->. apply (Hl _ _ Ep).
    + intros r q Hin. destruct (W _ Hin) as [?|(r' & R & Hn & E)]; [eapply Ho; eassumption|]. injection E as -> ->.
      destruct (Hr _ _ R) as (U & O & _). split; [assumption|]. destruct (app_of s r') as [b|] eqn:Eb; [|reflexivity].
      rewrite (O _ eq_refl) in Eb. exfalso. apply Hn. eapply H1; eassumption.
    + intros b q. destruct (N.eq_dec b a) as [->|Hb].
      * rewrite nupd_eq. intros E; injection E as <-. destruct (Hl _ _ Ep). split; [assumption|]. split; [|apply in_snoc; auto].
        intros b Eb. congruence.
      * rewrite nupd_neq by assumption. intros E. destruct (Hr _ _ E) as (U & O & I1). split; [assumption|]. split; [assumption|apply in_snoc; auto].
    + intros q Hq. rewrite WE. apply He; assumption.
    + intros q b. destruct (N.eq_dec q p) as [->|Hq].
      * intros E _. rewrite Ep in E. injection E as <-. apply nupd_eq.
      * rewrite (nupd_neq (attached s)) by assumption. intros E A. destruct (N.eq_dec b a) as [->|Hb].
        -- exfalso. apply Hq. eapply H1; eassumption.
        -- rewrite nupd_neq by assumption. apply Ha; assumption.
    + intros b q Hin. apply in_snoc in Hin as [?|?]; [eapply Hs; eassumption|discriminate].
    + intros q E Wq. destruct (N.eq_dec q p) as [->|Hq]; [apply nupd_eq|]. rewrite nupd_neq by assumption. apply Hwa; assumption.
  - (* SetHandler *)
    destruct (app_of s p) as [a|] eqn:Ep; [|discriminate]. destruct (attached s p && negb (wants s p)) eqn:At; [|discriminate]. injection S as <-.
    apply andb_true_iff in At as (At & _).
    constructor; cbn [app_of used attached wants recorded wire table]; try (assumption).
    + intros q b E. destruct (Hl q b E). split; [assumption|apply in_snoc; auto].
    + intros q m Hin. apply in_snoc in Hin as [?|E]; [eapply Hw; eassumption|]. injection E as -> ->. apply (Hl _ _ Ep).
    + intros r q Hin. apply in_snoc in Hin as [?|E]; [eapply Ho; eassumption|discriminate].
    + intros b q E. destruct (Hr _ _ E) as (U & O & I1). split; [assumption|]. split; [assumption|apply in_snoc; auto].
    + intros q Hq. rewrite eff_app. cbn. unfold eff1; cbn [fst snd]. destruct (N.eq_dec q p) as [->|Hn].
      * rewrite N.eqb_refl, nupd_eq. reflexivity.
      * rewrite nupd_neq by assumption. destruct (p =? q) eqn:E; [apply N.eqb_eq in E; congruence|]. apply He; assumption.
    + intros b q Hin. apply in_snoc in Hin as [?|?]; [eapply Hs; eassumption|discriminate].
    + intros q E Wq. destruct (N.eq_dec q p) as [->|Hn]; [assumption|]. rewrite nupd_neq in Wq by assumption. apply Hwa; assumption.
  - (* UnsetHandler *)
    destruct (app_of s p) as [a|] eqn:Ep; [|discriminate]. destruct (attached s p && wants s p) eqn:At; [|discriminate]. injection S as <-.
    constructor; cbn [app_of used attached wants recorded wire table]; try (assumption).
    + intros q b E. destruct (Hl q b E). split; [assumption|apply in_snoc; auto].
    + intros q m Hin. apply in_snoc in Hin as [?|E]; [eapply Hw; eassumption|]. injection E as -> ->. apply (Hl _ _ Ep).
    + intros r q Hin. apply in_snoc in Hin as [?|E]; [eapply Ho; eassumption|discriminate].
    + intros b q E. destruct (Hr _ _ E) as (U & O & I1). split; [assumption|]. split; [assumption|apply in_snoc; auto].
    + intros q Hq. rewrite eff_app. cbn. unfold eff1; cbn [fst snd]. destruct (N.eq_dec q p) as [->|Hn].
      * rewrite N.eqb_refl, nupd_eq. reflexivity.
      * rewrite nupd_neq by assumption. destruct (p =? q) eqn:E; [apply N.eqb_eq in E; congruence|]. apply He; assumption.
    + intros b q Hin. apply in_snoc in Hin as [?|?]; [eapply Hs; eassumption|discriminate].
    + intros q E Wq. destruct (N.eq_dec q p) as [->|Hn]; [rewrite nupd_eq in Wq; discriminate|].
      rewrite nupd_neq in Wq by assumption. apply Hwa; assumption.
  - (* Deliver *)
    destruct (take p (wire s)) as [[m w]|] eqn:Tk; [|discriminate]. injection S as <-.
    destruct (take_in _ _ _ _ Tk) as (Hin0 & Hsub).
    constructor; cbn [app_of used attached wants recorded wire table]; try (assumption).
    + intros q b E. destruct (Hl q b E). split; [assumption|apply in_snoc; auto].
    + intros q m' Hin. eapply Hw. apply Hsub; eassumption.
    + intros r q Hin. eapply Ho. apply Hsub; eassumption.
    + intros b q E. destruct (Hr _ _ E) as (U & O & I1). split; [assumption|]. split; [assumption|apply in_snoc; auto].
    + intros q. destruct m as [| |r]; cbn [table_step]; intros T.
      * destruct (N.eq_dec q p) as [->|Hn]; [eapply Hw; eassumption|]. rewrite nupd_neq in T by assumption. apply Ht, T.
      * destruct (N.eq_dec q p) as [->|Hn]; [eapply Hw; eassumption|]. rewrite nupd_neq in T by assumption. apply Ht, T.
      * destruct (N.eq_dec q r) as [->|Hn]; [rewrite nupd_eq in T; discriminate|]. rewrite nupd_neq in T by assumption. apply Ht, T.
    + intros q Hq. rewrite <- (He q Hq).
      destruct (take_split _ _ _ _ Tk) as (w1 & w2 & E & -> & Hnone). rewrite E. rewrite !eff_app.
      assert (Hnq : forall r, m = MOutdated r -> r <> q).
      { intros r -> ->. destruct (Ho _ _ Hin0). contradiction. }
      destruct (N.eq_dec p q) as [->|Hn].
      * rewrite !(eff_none q w1) by assumption. rewrite eff_cons. unfold eff1; cbn [fst snd]. rewrite N.eqb_refl.
        f_equal. destruct m as [| |r]; cbn [table_step]; rewrite ?nupd_eq; [reflexivity|reflexivity|].
        apply nupd_neq. intros ->. exact (Hnq _ eq_refl eq_refl).
      * rewrite table_other by assumption. rewrite eff_cons. unfold eff1; cbn [fst snd].
        destruct (p =? q) eqn:E2; [apply N.eqb_eq in E2; contradiction|]. reflexivity.
    + intros b q Hin. apply in_snoc in Hin as [?|?]; [eapply Hs; eassumption|discriminate].
  - (* Lose *)
    destruct (app_of s p) eqn:Ep; [discriminate|]. destruct (take p (wire s)) as [[m w]|] eqn:Tk; [|discriminate]. injection S as <-.
    destruct (take_in _ _ _ _ Tk) as (Hin0 & Hsub).
    constructor; cbn [app_of used attached wants recorded wire table]; try (assumption).
    + intros q b E. destruct (Hl q b E). split; [assumption|apply in_snoc; auto].
    + intros q m' Hin. eapply Hw. apply Hsub; eassumption.
    + intros r q Hin. eapply Ho. apply Hsub; eassumption.
    + intros b q E. destruct (Hr _ _ E) as (U & O & I1). split; [assumption|]. split; [assumption|apply in_snoc; auto].
    + intros q Hq. rewrite <- (He q Hq).
      destruct (take_split _ _ _ _ Tk) as (w1 & w2 & E & -> & Hnone). rewrite E. rewrite !eff_app.
      rewrite eff_cons. unfold eff1; cbn [fst snd].
      destruct (p =? q) eqn:E2; [apply N.eqb_eq in E2; subst; contradiction|]. reflexivity.
    + intros b q Hin. apply in_snoc in Hin as [?|?]; [eapply Hs; eassumption|discriminate].
  - (* Die *)
    destruct (app_of s p) as [a|] eqn:Ep; [|discriminate]. injection S as <-.
    assert (Hdown : forall q b, nupd (app_of s) p None q = Some b -> app_of s q = Some b /\ q <> p).
    { intros q b. destruct (N.eq_dec q p) as [->|Hn]; [rewrite nupd_eq; discriminate|]. rewrite nupd_neq by assumption. auto. }
    assert (Hdown2 : forall q, nupd (app_of s) p None q <> None -> app_of s q <> None).
    { intros q Hq. destruct (nupd (app_of s) p None q) eqn:E; [|contradiction]. apply Hdown in E as (-> & _). discriminate. }
    constructor; cbn [app_of used attached wants recorded wire table]; try (assumption).
    + intros q b E. apply Hdown in E as (E & _). destruct (Hl q b E). split; [assumption|apply in_snoc; auto].
    + intros q r b E1 E2. apply Hdown in E1 as (E1 & _). apply Hdown in E2 as (E2 & _). eapply H1; eassumption.
    + intros r q Hin. destruct (Ho _ _ Hin) as (U & D). split; [assumption|].
      destruct (N.eq_dec q p) as [->|Hn]; [apply nupd_eq|]. rewrite nupd_neq by assumption. assumption.
    + intros b q E. destruct (Hr _ _ E) as (U & O & I1). split; [assumption|]. split; [|apply in_snoc; auto].
      intros c Ec. apply Hdown in Ec as (Ec & _). apply O; assumption.
    + intros q Hq. apply He. apply Hdown2; assumption.
    + intros q b E. apply Hdown in E as (E & _). apply Ha; assumption.
    + intros b q Hin. apply in_snoc in Hin as [?|?]; [eapply Hs; eassumption|discriminate].
    + intros q Hq. apply Hwa. apply Hdown2; assumption.
Qed.

Lemma inv_init : inv [] init.
Proof. constructor; cbn; try discriminate; try tauto; try (intros; contradiction). Qed.

Lemma reach_inv ls s : reach orderly ls s -> inv ls s.
Proof. induction 1 as [|ls s l s' R IH OK S]; [apply inv_init|]. eapply inv_step; eassumption. Qed.

(** ** C84: live processes *)
(** full claim: whatever other processes start, die and restart, once the messages of a live process
    have arrived the provider notifies it exactly if it has a receive handler registered *)
Theorem C84_live_process_partial : forall ls s p,
  reach orderly ls s -> alive s p -> quiet s p -> table s p = wants s p.
Proof.
  intros ls s p R A Q. apply reach_inv in R. rewrite <- (i_eff _ _ R p A). symmetry. apply eff_none. exact Q.
Qed.

(** ** C84: dead processes *)
Lemma tidy_orderly ls s : reach tidy ls s -> reach orderly ls s.
Proof. induction 1 as [|ls s l s' R IH OK S]; [constructor|]. econstructor; [eassumption|apply OK|eassumption]. Qed.

Record inv2 (ls : list label) (s : st) : Prop := mkInv2 {
  j_main : forall a q, In (Start a q) ls -> table s q = true \/ (exists m, In (q, m) (wire s)) ->
    recorded s a = Some q \/ dying_word s q;
  j_quiet : forall r q, In (r, MOutdated q) (wire s) -> quiet s q /\ app_of s r <> None;
  j_app : forall a b q, In (Start a q) ls -> In (Start b q) ls -> a = b
}.

Lemma inv2_step ls s l s' : inv ls s -> inv2 ls s -> tidy s l -> step s l = Some s' -> inv2 (ls ++ [l]) s'.
Proof.
  intros I [Jm Jq Ja] (OK & TD) S. unfold dying_word, quiet in *.
  destruct l as [a p|p|p|p|p|p|p]; cbn [step orderly] in *.
  - destruct OK as (Hu & Hn). destruct (app_of s p) eqn:Ep; [discriminate|]. injection S as <-.
    constructor; cbn [app_of used attached wants recorded wire table].
    + intros b q Hin H. apply in_snoc in Hin as [Hin|E]; [apply Jm; assumption|]. injection E as -> ->.
      exfalso. destruct H as [T|(m & Hm)]; [rewrite (i_tab _ _ I _ T) in Hu|rewrite (i_wire _ _ I _ _ Hm) in Hu]; discriminate.
    + intros r q Hin. destruct (Jq r q Hin) as (Q & A). split; [assumption|].
      destruct (N.eq_dec r p) as [->|Hr]; [rewrite nupd_eq; discriminate|rewrite nupd_neq by assumption; assumption].
    + intros b c q H1 H2. apply in_snoc in H1 as [H1|E1]; apply in_snoc in H2 as [H2|E2].
      * eapply Ja; eassumption.
      * injection E2 as -> ->. rewrite (i_start _ _ I _ _ H1) in Hu; discriminate.
      * injection E1 as -> ->. rewrite (i_start _ _ I _ _ H2) in Hu; discriminate.
      * congruence.
  - destruct (app_of s p) as [a|] eqn:Ep; [|discriminate]. destruct (attached s p) eqn:At; [discriminate|]. injection S as <-.
    constructor; cbn [app_of used attached wants recorded wire table].
    + intros b q Hin H. apply in_snoc in Hin as [Hin|E]; [|discriminate].
      destruct (N.eq_dec b a) as [->|Hb].
      * destruct (N.eq_dec q p) as [->|Hq]; [left; apply nupd_eq|].
        assert (Hold : table s q = true \/ (exists m, In (q, m) (wire s))).
        { destruct H as [?|(m & Hm)]; [tauto|]. right. exists m.
          destruct (recorded s a) as [r|]; [|assumption]. destruct (r =? p); [assumption|]. apply in_snoc in Hm as [?|E]; [assumption|congruence]. }
        right. destruct (Jm _ _ Hin Hold) as [E|(r & Hr)].
        -- rewrite E. exists p. destruct (q =? p) eqn:E2; [apply N.eqb_eq in E2; contradiction|]. apply in_snoc; auto.
        -- exists r. destruct (recorded s a) as [r'|]; [|assumption]. destruct (r' =? p); [assumption|]. apply in_snoc; auto.
      * assert (Hold : table s q = true \/ (exists m, In (q, m) (wire s))).
        { destruct H as [?|(m & Hm)]; [tauto|].
          destruct (recorded s a) as [r|]; [|right; exists m; assumption]. destruct (r =? p); [right; exists m; assumption|].
          apply in_snoc in Hm as [?|E]; [right; exists m; assumption|]. injection E as -> _.
          exfalso. apply Hb. eapply Ja; [exact Hin|]. apply (i_live _ _ I _ _ Ep). }
        destruct (Jm _ _ Hin Hold) as [E|(r & Hr)].
        -- left. rewrite nupd_neq by assumption. assumption.
        -- right. exists r. destruct (recorded s a) as [r'|]; [|assumption]. destruct (r' =? p); [assumption|]. apply in_snoc; auto.
    + intros r q Hin.
      assert (Hnew : forall m q', In (q', m) (wire s) -> app_of s q' <> None).
      { intros m q' Hm A. apply (TD q' m A Hm). }
      destruct (recorded s a) as [o|] eqn:R.
      * destruct (o =? p) eqn:E; [apply Jq in Hin; exact Hin|].
        apply in_snoc in Hin as [Hin|E2].
        -- destruct (Jq _ _ Hin) as (Q & A). split; [|assumption]. intros m Hm. apply in_snoc in Hm as [Hm|E2]; [apply (Q m Hm)|].
           injection E2 as -> ->. destruct (i_out _ _ I _ _ Hin). congruence.
        -- injection E2 as -> ->. apply N.eqb_neq in E. split; [|congruence].
           assert (D : app_of s o = None).
           { destruct (i_rec _ _ I _ _ R) as (_ & O & _). destruct (app_of s o) as [b|] eqn:Eo; [|reflexivity].
             rewrite (O _ eq_refl) in Eo. exfalso. apply E. eapply (i_one _ _ I); eassumption. }
           intros m Hm. apply in_snoc in Hm as [Hm|E2]; [apply (TD _ _ D Hm)|]. injection E2 as -> _. contradiction.
      * apply Jq in Hin; exact Hin.
    + intros b c q H1 H2. apply in_snoc in H1 as [H1|?]; [|discriminate]; apply in_snoc in H2 as [H2|?]; [|discriminate]. eapply Ja; eassumption.
  - destruct (app_of s p) as [a|] eqn:Ep; [|discriminate]. destruct (attached s p && negb (wants s p)) eqn:At; [|discriminate]. injection S as <-.
    apply andb_true_iff in At as (At & _). pose proof (i_att _ _ I _ _ Ep At) as Rp. pose proof (proj2 (i_live _ _ I _ _ Ep)) as Sp.
    constructor; cbn [app_of used attached wants recorded wire table].
    + intros b q Hin H. apply in_snoc in Hin as [Hin|E]; [|discriminate].
      destruct (N.eq_dec q p) as [->|Hq]; [left; rewrite (Ja _ _ _ Hin Sp); assumption|].
      destruct (Jm b q Hin) as [?|(r & Hr)]; [|tauto|right; exists r; apply in_snoc; auto].
      destruct H as [?|(m & Hm)]; [tauto|]. right. exists m. apply in_snoc in Hm as [?|E]; [assumption|congruence].
    + intros r q Hin. apply in_snoc in Hin as [Hin|E]; [|discriminate]. destruct (Jq _ _ Hin) as (Q & A). split; [|assumption].
      intros m Hm. apply in_snoc in Hm as [Hm|E]; [apply (Q m Hm)|]. injection E as -> _. destruct (i_out _ _ I _ _ Hin). congruence.
    + intros b c q H1 H2. apply in_snoc in H1 as [H1|?]; [|discriminate]; apply in_snoc in H2 as [H2|?]; [|discriminate]. eapply Ja; eassumption.
  - destruct (app_of s p) as [a|] eqn:Ep; [|discriminate]. destruct (attached s p && wants s p) eqn:At; [|discriminate]. injection S as <-.
    apply andb_true_iff in At as (At & _). pose proof (i_att _ _ I _ _ Ep At) as Rp. pose proof (proj2 (i_live _ _ I _ _ Ep)) as Sp.
    constructor; cbn [app_of used attached wants recorded wire table].
    + intros b q Hin H. apply in_snoc in Hin as [Hin|E]; [|discriminate].
      destruct (N.eq_dec q p) as [->|Hq]; [left; rewrite (Ja _ _ _ Hin Sp); assumption|].
      destruct (Jm b q Hin) as [?|(r & Hr)]; [|tauto|right; exists r; apply in_snoc; auto].
      destruct H as [?|(m & Hm)]; [tauto|]. right. exists m. apply in_snoc in Hm as [?|E]; [assumption|congruence].
    + intros r q Hin. apply in_snoc in Hin as [Hin|E]; [|discriminate]. destruct (Jq _ _ Hin) as (Q & A). split; [|assumption].
      intros m Hm. apply in_snoc in Hm as [Hm|E]; [apply (Q m Hm)|]. injection E as -> _. destruct (i_out _ _ I _ _ Hin). congruence.
    + intros b c q H1 H2. apply in_snoc in H1 as [H1|?]; [|discriminate]; apply in_snoc in H2 as [H2|?]; [|discriminate]. eapply Ja; eassumption.
  - (* Deliver *)
    destruct (take p (wire s)) as [[m w]|] eqn:Tk; [|discriminate]. injection S as <-.
    destruct (take_in _ _ _ _ Tk) as (Hin0 & Hsub).
    destruct (take_split _ _ _ _ Tk) as (w1 & w2 & Ew & Ew' & Hnone).
    constructor; cbn [app_of used attached wants recorded wire table].
    + intros b q Hin H. apply in_snoc in Hin as [Hin|E]; [|discriminate].
      assert (Hold : table s q = true \/ (exists m', In (q, m') (wire s))).
      { destruct H as [T|(m' & Hm)]; [|right; exists m'; apply Hsub; assumption].
        destruct (N.eq_dec q p) as [->|Hq]; [right; exists m; assumption|].
        left. destruct m as [| |r]; cbn [table_step] in T; try (rewrite nupd_neq in T by assumption; assumption).
        destruct (N.eq_dec q r) as [->|Hn]; [rewrite nupd_eq in T; discriminate|rewrite nupd_neq in T by assumption; assumption]. }
      destruct (Jm b q Hin Hold) as [?|(r & Hr)]; [tauto|].
      right. exists r. subst w. rewrite Ew in Hr. apply in_app_or in Hr as [Hr|[E|Hr]]; [apply in_or_app; tauto| |apply in_or_app; tauto].
      injection E as -> ->. exfalso.
      (* the message that arrived was the one about q *)
      assert (Hr' : In (r, MOutdated q) (wire s)) by assumption.
      destruct (Jq _ _ Hr') as (Q & _). destruct H as [T|(m' & Hm)]; [|apply (Q m'); apply Hsub; assumption].
      cbn [table_step] in T. rewrite nupd_eq in T. discriminate.
    + intros r q Hin. destruct (Jq r q (Hsub _ Hin)) as (Q & A). split; [|assumption]. intros m' Hm. apply (Q m'), Hsub, Hm.
    + intros b c q H1 H2. apply in_snoc in H1 as [H1|?]; [|discriminate]; apply in_snoc in H2 as [H2|?]; [|discriminate]. eapply Ja; eassumption.
  - (* Lose *)
    destruct (app_of s p) eqn:Ep; [discriminate|]. destruct (take p (wire s)) as [[m w]|] eqn:Tk; [|discriminate]. injection S as <-.
    destruct (take_in _ _ _ _ Tk) as (Hin0 & Hsub).
    destruct (take_split _ _ _ _ Tk) as (w1 & w2 & Ew & Ew' & Hnone).
    constructor; cbn [app_of used attached wants recorded wire table].
    + intros b q Hin H. apply in_snoc in Hin as [Hin|E]; [|discriminate].
      assert (Hold : table s q = true \/ (exists m', In (q, m') (wire s))).
      { destruct H as [T|(m' & Hm)]; [tauto|right; exists m'; apply Hsub; assumption]. }
      destruct (Jm b q Hin Hold) as [?|(r & Hr)]; [tauto|].
      right. exists r. subst w. rewrite Ew in Hr. apply in_app_or in Hr as [Hr|[E|Hr]]; [apply in_or_app; tauto| |apply in_or_app; tauto].
      injection E as -> ->. exfalso. destruct (Jq _ _ Hin0) as (_ & A). contradiction.
    + intros r q Hin. destruct (Jq r q (Hsub _ Hin)) as (Q & A). split; [|assumption]. intros m' Hm. apply (Q m'), Hsub, Hm.
    + intros b c q H1 H2. apply in_snoc in H1 as [H1|?]; [|discriminate]; apply in_snoc in H2 as [H2|?]; [|discriminate]. eapply Ja; eassumption.
  - destruct (app_of s p) as [a|] eqn:Ep; [|discriminate]. injection S as <-.
    constructor; cbn [app_of used attached wants recorded wire table].
    + intros b q Hin H. apply in_snoc in Hin as [Hin|E]; [|discriminate]. apply Jm; assumption.
    + intros r q Hin. destruct (Jq r q Hin) as (Q & A). split; [assumption|].
      destruct (N.eq_dec r p) as [->|Hr]; [exfalso; apply (TD _ Hin)|rewrite nupd_neq by assumption; assumption].
    + intros b c q H1 H2. apply in_snoc in H1 as [H1|?]; [|discriminate]; apply in_snoc in H2 as [H2|?]; [|discriminate]. eapply Ja; eassumption.
Qed.

Lemma inv2_init : inv2 [] init.
Proof. constructor; cbn; try tauto; intros; contradiction. Qed.

Lemma reach_inv2 ls s : reach tidy ls s -> inv2 ls s.
Proof.
  induction 1 as [|ls s l s' R IH OK S]; [apply inv2_init|].
  eapply inv2_step; try eassumption. apply reach_inv, tidy_orderly, R.
Qed.

(** full claim: when an application has been restarted and its new process has created a proxy, the
    provider no longer notifies its earlier processes *)
Theorem C84_predecessors_forgotten_partial : forall ls s a p q,
  reach tidy ls s -> app_of s p = Some a -> attached s p = true ->
  In (Start a q) ls -> q <> p -> (forall r, ~ In (r, MOutdated q) (wire s)) -> table s q = false.
Proof.
  intros ls s a p q R Ep At Hin Hne Hno.
  pose proof (reach_inv _ _ (tidy_orderly _ _ R)) as I. pose proof (reach_inv2 _ _ R) as J.
  destruct (table s q) eqn:T; [|reflexivity]. exfalso.
  destruct (j_main _ _ J _ _ Hin (or_introl T)) as [E|(r & Hr)]; [|apply (Hno r Hr)].
  rewrite (i_att _ _ I _ _ Ep At) in E. congruence.
Qed.

(** ** The table is the one of MsgModel *)
Definition bytes_of (e : MsgModel.fqid) (m : msg) : list N :=
  MsgModel.write_note (fun _ => 0) match m with MReg => MsgModel.Register e | MUnreg => MsgModel.Unregister e | MOutdated p => MsgModel.Outdated p end.
Definition reads_back (e : MsgModel.fqid) (m : msg) : Prop :=
  MsgModel.read_note (bytes_of e m) = Some match m with MReg => MsgModel.Register e | MUnreg => MsgModel.Unregister e | MOutdated p => MsgModel.Outdated p end.

Theorem C84_table_is_the_providers : forall pids s sender e m closes s' fx,
  reads_back e m ->
  MsgModel.handle_note pids s sender (bytes_of e m) closes = MsgModel.Fine s' fx ->
  forall q, MsgModel.nodes s' (MsgModel.key_of e) q = table_step (MsgModel.nodes s (MsgModel.key_of e)) sender m q.
Proof.
  intros pids s sender e m closes s' fx RB H q. unfold MsgModel.handle_note in H. unfold reads_back in RB. rewrite RB in H.
  assert (KK : MsgModel.ekey_eqb (MsgModel.key_of e) (MsgModel.key_of e) = true).
  { unfold MsgModel.ekey_eqb, MsgModel.key_of. rewrite !N.eqb_refl. reflexivity. }
  assert (T : forall x kk bb, MsgModel.nodes (MsgModel.tell x kk bb) = MsgModel.nodes x)
    by (intros; unfold MsgModel.tell; destruct (MsgModel.told _ _); reflexivity).
  destruct m as [| |p]; cbn [table_step].
  - injection H as <- <-. match goal with |- context [if ?c then _ else _] => destruct c end; rewrite ?T;
      unfold MsgModel.set_nodes, MsgModel.eupd; cbn [MsgModel.nodes]; rewrite KK; reflexivity.
  - injection H as <- <-. match goal with |- context [if ?c then _ else _] => destruct c end; rewrite ?T;
      unfold MsgModel.set_nodes, MsgModel.eupd; cbn [MsgModel.nodes]; rewrite KK; reflexivity.
  - destruct (_ && _); [discriminate|]. injection H as <- <-. reflexivity.
Qed.

(** ** What goes wrong otherwise *)
Lemma ex_run ls (P : st -> Prop) : match run init ls with Some s => P s | None => False end -> exists s, run init ls = Some s /\ P s.
Proof. destruct (run init ls) as [s|]; [|contradiction]. intros H. exists s. auto. Qed.

(** FALSE with reused process ids: the restart of application 1 removes the registration of the live
    process 100 of application 2, whose number had been that of application 1's dead process. *)
Definition reuse := [Start 1 100; Attach 100; SetHandler 100; Deliver 100; Die 100;
                     Start 2 100; Attach 100; SetHandler 100; Deliver 100;
                     Start 1 101; Attach 101; Deliver 101].
Theorem C84_reused_pid_refuted : exists s, run init reuse = Some s /\
  app_of s 100 = Some 2 /\ wants s 100 = true /\ wire s = [] /\ table s 100 = false.
Proof. apply ex_run. vm_compute. repeat split; reflexivity. Qed.

(** FALSE if two processes share an application id (the default is the user id): the second one's
    first proxy removes the registration of the first one, which is alive. *)
Definition shared := [Start 1 100; Attach 100; SetHandler 100; Deliver 100; Start 1 101; Attach 101; Deliver 101].
Theorem C84_shared_application_id_refuted : exists s, run init shared = Some s /\
  app_of s 100 = Some 1 /\ wants s 100 = true /\ wire s = [] /\ table s 100 = false.
Proof. apply ex_run. vm_compute. repeat split; reflexivity. Qed.

(** FALSE if the application gets the same process id again: its new process is notified although it
    has no handler registered. *)
Definition same := [Start 1 100; Attach 100; SetHandler 100; Deliver 100; Die 100; Start 1 100; Attach 100].
Theorem C84_same_pid_refuted : exists s, run init same = Some s /\
  app_of s 100 = Some 1 /\ wants s 100 = false /\ wire s = [] /\ table s 100 = true.
Proof. apply ex_run. vm_compute. repeat split; reflexivity. Qed.

(** FALSE if a registration of the dead process arrives after its successor's message: the dead
    process stays in the table (process ids are not reused and there is one process at a time). *)
Definition late := [Start 1 100; Attach 100; SetHandler 100; Die 100; Start 1 101; Attach 101; Deliver 101; Deliver 100].
Theorem C84_late_registration_refuted : exists s, run init late = Some s /\
  app_of s 100 = None /\ app_of s 101 = Some 1 /\ attached s 101 = true /\ wire s = [] /\ table s 100 = true.
Proof. apply ex_run. vm_compute. repeat split; reflexivity. Qed.

(** FALSE if the successor dies before its message about its predecessor is sent: the successor's
    successor only reports the successor. *)
Definition crash_twice := [Start 1 100; Attach 100; SetHandler 100; Deliver 100; Die 100;
                           Start 1 101; Attach 101; Die 101; Lose 101; Start 1 102; Attach 102; Deliver 102].
Theorem C84_crash_during_restart_refuted : exists s, run init crash_twice = Some s /\
  app_of s 100 = None /\ app_of s 102 = Some 1 /\ attached s 102 = true /\ wire s = [] /\ table s 100 = true.
Proof. apply ex_run. vm_compute. repeat split; reflexivity. Qed.

(** ** Checking runs *)
Lemma live_started ok ls s : reach ok ls s -> forall q b, app_of s q = Some b -> exists a, In (Start a q) ls.
Proof.
  induction 1 as [|ls s l s' R IH OK S]; intros q b E; [discriminate|].
  assert (K : (exists a, l = Start a q) \/ exists b', app_of s q = Some b').
  { destruct l as [a p|p|p|p|p|p|p]; cbn [step] in S;
      repeat match type of S with match ?x with _ => _ end = _ => destruct x eqn:?; try discriminate end;
      injection S as <-; cbn [app_of] in E; eauto.
    - destruct (N.eq_dec q p) as [->|Hq]; [left; exists a; reflexivity|]. rewrite nupd_neq in E by assumption. eauto.
    - destruct (N.eq_dec q p) as [->|Hq]; [rewrite nupd_eq in E; discriminate|]. rewrite nupd_neq in E by assumption. eauto. }
  destruct K as [(a & ->)|(b' & E')]; [exists a; apply in_snoc; auto|].
  destruct (IH _ _ E') as (a & Ha). exists a. apply in_snoc; auto.
Qed.

Definition pids (ls : list label) : list N := flat_map (fun l => match l with Start _ p => [p] | _ => [] end) ls.
Lemma in_pids a p ls : In (Start a p) ls -> In p (pids ls).
Proof. intros H. apply in_flat_map. exists (Start a p). split; [assumption|left; reflexivity]. Qed.

Definition orderlyb (ls : list label) (s : st) (l : label) : bool :=
  match l with
  | Start a p => negb (used s p) && forallb (fun q => match app_of s q with Some b => negb (b =? a) | None => true end) (pids ls)
  | _ => true
  end.
Definition tidyb (s : st) (l : label) : bool :=
  match l with
  | Attach p => forallb (fun x => match app_of s (fst x) with Some _ => true | None => false end) (wire s)
  | Die p => forallb (fun x => negb ((fst x =? p) && match snd x with MOutdated _ => true | _ => false end)) (wire s)
  | _ => true
  end.
Fixpoint check (strict : bool) (ls0 : list label) (s : st) (ls : list label) : bool :=
  match ls with
  | [] => true
  | l :: r => match step s l with
              | Some s' => orderlyb ls0 s l && (negb strict || tidyb s l) && check strict (ls0 ++ [l]) s' r
              | None => false
              end
  end.

Lemma orderlyb_sound ok ls s l : reach ok ls s -> orderlyb ls s l = true -> orderly s l.
Proof.
  destruct l; cbn [orderlyb orderly]; try tauto. intros R H. apply andb_true_iff in H as (H1 & H2). apply negb_true_iff in H1.
  split; [assumption|]. intros q E. destruct (live_started _ _ _ R _ _ E) as (a & Ha). rewrite forallb_forall in H2.
  specialize (H2 q (in_pids _ _ _ Ha)). rewrite E, N.eqb_refl in H2. discriminate.
Qed.
Lemma tidyb_sound s l : orderly s l -> tidyb s l = true -> tidy s l.
Proof.
  intros O H. split; [assumption|]. destruct l; cbn [tidyb] in H; try tauto; rewrite forallb_forall in H.
  - intros q m E Hin. specialize (H _ Hin). cbn [fst] in H. rewrite E in H. discriminate.
  - intros q Hin. specialize (H _ Hin). cbn [fst snd] in H. rewrite N.eqb_refl in H. discriminate.
Qed.
Lemma check_reach (strict : bool) ls0 s ls s' :
  reach (if strict then tidy else orderly) ls0 s -> check strict ls0 s ls = true -> run s ls = Some s' ->
  reach (if strict then tidy else orderly) (ls0 ++ ls) s'.
Proof.
  revert ls0 s; induction ls as [|l r IH]; intros ls0 s R C E; cbn [run check] in *.
  - injection E as <-. rewrite app_nil_r. assumption.
  - destruct (step s l) as [s1|] eqn:S; [|discriminate]. apply andb_true_iff in C as (C & C3). apply andb_true_iff in C as (C1 & C2).
    replace (ls0 ++ l :: r) with ((ls0 ++ [l]) ++ r) by (rewrite <- app_assoc; reflexivity).
    apply orderlyb_sound with (1 := R) in C1.
    eapply IH; [econstructor; [exact R| |exact S]|assumption|assumption].
    destruct strict; [|assumption]. apply tidyb_sound; assumption.
Qed.

(** in both refuting runs about dead processes nobody reuses an id or shares an application *)
Theorem C84_orderly_runs_refuted : forall ls, ls = late \/ ls = crash_twice ->
  exists s, reach orderly ls s /\ app_of s 100 = None /\ wire s = [] /\ table s 100 = true /\
            exists p, app_of s p = Some 1 /\ attached s p = true.
Proof.
  assert (K : forall ls p, check false [] init ls = true ->
    (exists s, run init ls = Some s /\ app_of s 100 = None /\ app_of s p = Some 1 /\ attached s p = true /\ wire s = [] /\ table s 100 = true) ->
    exists s, reach orderly ls s /\ app_of s 100 = None /\ wire s = [] /\ table s 100 = true /\
            exists p, app_of s p = Some 1 /\ attached s p = true).
  { intros ls p C (s & E & H1 & H2 & H3 & H4 & H5). exists s. split.
    - apply (check_reach false [] init ls); [constructor|assumption|assumption].
    - repeat split; try assumption. exists p. auto. }
  intros ls [-> | ->].
  - apply (K late 101); [vm_compute; reflexivity|apply C84_late_registration_refuted].
  - apply (K crash_twice 102); [vm_compute; reflexivity|apply C84_crash_during_restart_refuted].
Qed.

(** ** Non-vacuity: an ordinary restart *)
Definition restart := [Start 1 100; Start 2 200; Attach 100; SetHandler 100; Deliver 100; Die 100;
                       Start 1 101; Attach 101; SetHandler 101; Deliver 101; Deliver 101].
Example ex_restart : exists s, run init restart = Some s /\ reach tidy restart s /\
  app_of s 101 = Some 1 /\ attached s 101 = true /\ wire s = [] /\ table s 101 = true /\ table s 100 = false.
Proof.
  assert (E : exists s, run init restart = Some s /\ (app_of s 101 = Some 1 /\ attached s 101 = true /\ wire s = [] /\ table s 101 = true /\ table s 100 = false)).
  { apply ex_run; vm_compute; repeat split; reflexivity. }
  destruct E as (s & E & H). exists s. split; [assumption|]. split; [|assumption].
  apply (check_reach true [] init restart); [constructor|vm_compute; reflexivity|assumption].
Qed.

Print Assumptions C84_live_process_partial.
Print Assumptions C84_predecessors_forgotten_partial.
