(** What is true of each search and of each frame in every reachable state. *)
From Verif Require Import Base FrontModel FrontSpec FrontProof.

Record early (s : st) (h : nat) : Prop := {
  e_kn : ~ In h (known s); e_ca : ~ In h (called s); e_go : ~ In h (gone s); e_re : ~ In h (regs s);
  e_ob : ~ In h (obs s); e_sp : ~ In h (stops s); e_fa : ~ In h (failed s); e_rf : refs s h = 0
}.
(** StartFindService has failed: the handler is destroyed and was never called. *)
Record lost (s : st) (h : nat) : Prop := {
  l_kn : ~ In h (known s); l_ca : ~ In h (called s); l_go : In h (gone s); l_re : ~ In h (regs s);
  l_sp : ~ In h (stops s); l_st : ~ In h (stored s); l_in : ~ In h (insts s); l_rf : refs s h = 0; l_un : ~ In h (unres s)
}.

(** The handle of a call that has not got past registration. *)
Definition pre (f : frame) : option nat :=
  match f with
  | FStart1 h _ | FStart3 h _ | FStart4 h | FStart6 h false | FStop1 h true | FStop3 h true _ | FStop4 h true | FStop6 h true => Some h
  | _ => None
  end.
Definition sfact (s : st) (f : frame) : Prop :=
  match f with
  | FStart1 h r => early s h /\ ~ In h (stored s) /\ ~ In h (insts s) /\ (In h (unres s) <-> r = false)
  | FStart3 h r => early s h /\ In h (stored s) /\ (In h (insts s) <-> r = true) /\ (In h (unres s) <-> r = false)
  | FStart4 h | FStart6 h false | FStop1 h true => early s h /\ In h (stored s) /\ In h (insts s) /\ ~ In h (unres s)
  | FStop3 h true b => lost s h /\ b = true /\ ~ In h (failed s)
  | FStop4 h true | FStop6 h true => lost s h /\ ~ In h (failed s)
  | _ => True
  end.
Definition fact6 (s : st) (f : frame) : Prop :=
  match f with
  | FStart6 h true => ~ In h (unres s) /\ ~ In h (failed s) /\
      (~ In h (stops s) -> In h (stored s) /\ In h (insts s) /\ In h (regs s) /\ ~ In h (obs s)) /\
      (In h (stops s) -> In h (known s))
  | _ => True
  end.
Definition nfact (s : st) (f : frame) : Prop :=
  match f with
  | FStop1 h false => In h (known s) /\ In h (stops s)
  | FStop3 h false b => In h (known s) /\ In h (stops s) /\ ~ In h (stored s) /\ ~ In h (insts s) /\ (b = true -> ~ In h (unres s))
  | FStop4 h false | FStop6 h false => In h (known s) /\ In h (stops s) /\ ~ In h (stored s) /\ ~ In h (insts s) /\ ~ In h (unres s)
  | FHandler h => In h (known s) /\ In h (called s)
  | FDtor h => In h (gone s)
  | _ => True
  end.
Record good (s : st) (h : nat) : Prop := {
  g_gone : In h (gone s) -> ~ In h (stored s) /\ refs s h = 0;
  g_insts : In h (insts s) -> In h (stored s);
  g_si : In h (stored s) -> In h (unres s) \/ In h (insts s);
  g_kn : In h (known s) -> In h (stored s) \/ In h (gone s) \/ 0 < refs s h;
  g_ok : In h (known s) -> ~ In h (stops s) -> In h (stored s) /\ (In h (unres s) \/ In h (insts s) /\ In h (regs s) /\ ~ In h (obs s));
  g_un : In h (unres s) -> ~ In h (regs s) /\ ~ In h (insts s) /\ ~ In h (called s);
  g_called : In h (called s) -> In h (known s);
  g_stops : In h (stops s) -> In h (known s);
  g_fail : In h (failed s) -> lost s h;
  g_ref : refs s h <= 1;
  g_refc : 0 < refs s h -> In h (called s)
}.
Definition blank (s : st) (h : nat) : Prop :=
  early s h /\ ~ In h (stored s) /\ ~ In h (insts s) /\ ~ In h (unres s).

Record inv4 (s : st) : Prop := {
  j_s : forall t f, In f (stk s t) -> sfact s f;
  j_6 : forall t f, In f (stk s t) -> fact6 s f;
  j_n : forall t f, In f (stk s t) -> nfact s f;
  j_g : forall h, good s h;
  j_b : forall h, next s <= h -> blank s h;
  j_nd : NoDup (gone s)
}.

(** Nothing changes for search h, except that it may be forgotten after it has been stopped. *)
Record keep (s s' : st) (h : nat) : Prop := {
  k_kn : In h (known s') <-> In h (known s); k_ca : In h (called s') <-> In h (called s);
  k_go : In h (gone s') <-> In h (gone s); k_sp : In h (stops s') <-> In h (stops s);
  k_fa : In h (failed s') <-> In h (failed s); k_st : In h (stored s') <-> In h (stored s);
  k_in : In h (insts s') <-> In h (insts s); k_un : In h (unres s') <-> In h (unres s);
  k_rf : refs s' h = refs s h; k_re : In h (regs s') -> In h (regs s); k_ob : In h (obs s') -> In h (obs s);
  k_rg : In h (regs s) -> ~ In h (obs s) -> In h (regs s')
}.

Lemma keep_early s s' h : keep s s' h -> early s h -> early s' h.
Proof. intros [] []. constructor; try tauto; try congruence. Qed.
Lemma keep_lost s s' h : keep s s' h -> lost s h -> lost s' h.
Proof. intros [] []. constructor; try tauto; try congruence. Qed.
Lemma keep_s s s' f h : pre f = Some h -> keep s s' h -> sfact s f -> sfact s' f.
Proof.
  intros P K. pose proof (keep_early _ _ _ K) as KE. pose proof (keep_lost _ _ _ K) as KL. destruct K.
  destruct f; cbn in *; try discriminate; try (destruct ok); try (destruct i); try discriminate; injection P as ->; tauto.
Qed.
Lemma sfact_none s f : pre f = None -> sfact s f.
Proof. destruct f; cbn; auto; try discriminate; try destruct ok; try destruct i; auto; discriminate. Qed.
Lemma keep_good s s' h : keep s s' h -> good s h -> good s' h.
Proof.
  intros K G. pose proof (keep_lost _ _ _ K) as KL. destruct K, G. constructor; rewrite ?k_rf0; try tauto.
Qed.
Lemma keep_blank s s' h : keep s s' h -> blank s h -> blank s' h.
Proof. intros K. unfold blank. pose proof (keep_early _ _ _ K) as KE. destruct K. tauto. Qed.

(** Once handed out or stopped, always handed out and stopped; what is erased stays erased. *)
Record mono (s s' : st) (h : nat) : Prop := {
  m_kn : In h (known s) -> In h (known s'); m_ca : In h (called s) -> In h (called s');
  m_go : In h (gone s) -> In h (gone s'); m_sp : In h (stops s) -> In h (stops s');
  m_st : In h (known s) -> ~ In h (stored s) -> ~ In h (stored s');
  m_in : In h (known s) -> ~ In h (insts s) -> ~ In h (insts s');
  m_un : In h (known s) -> ~ In h (unres s) -> ~ In h (unres s')
}.
Definition mono6 (s s' : st) (h : nat) : Prop := fact6 s (FStart6 h true) -> fact6 s' (FStart6 h true).

Lemma keep_mono s s' h : keep s s' h -> mono s s' h.
Proof. intros []. constructor; tauto. Qed.
Lemma keep_mono6 s s' h : keep s s' h -> mono6 s s' h.
Proof. intros []. unfold mono6. cbn. tauto. Qed.
Lemma mono_n s s' f : (forall h, mono s s' h) -> nfact s f -> nfact s' f.
Proof.
  intros M. destruct f; cbn; auto; try (destruct i); auto; destruct (M h); tauto.
Qed.
Lemma mono_6 s s' f : (forall h, f = FStart6 h true -> mono6 s s' h) -> fact6 s f -> fact6 s' f.
Proof. intros M. destruct f; auto. destruct ok; auto. apply M. reflexivity. Qed.

(** The frames of the new stacks: the new ones of t, the old ones of t below its top, and those of other threads. *)
Lemma frames_upd s t f r new x g : stk s t = f :: r -> In g (upd (stk s) t (new ++ r) x) ->
  (x = t /\ In g new) \/ (In g r) \/ (x <> t /\ In g (stk s x)).
Proof.
  intros E. unfold upd. destruct (Nat.eqb_spec x t) as [->|N]; [|auto]. intros I. apply in_app_or in I as [I|I]; auto.
Qed.

Lemma pre_isS f h : pre f = Some h -> isS h f = true.
Proof. destruct f; cbn; try discriminate; try destruct ok; try destruct i; try discriminate; intros H; injection H as ->; apply Nat.eqb_refl. Qed.

Lemma other_pre s t f r h g : inv3 s -> stk s t = f :: r -> isS h f = true ->
  (In g r \/ exists x, x <> t /\ In g (stk s x)) -> isS h g = true -> False.
Proof.
  intros [A B _] E F O G.
  assert (P : 0 < cnt (isS h) (stk s t)) by (rewrite E, cnt_cons, F; lia).
  destruct O as [O|(x & N & O)].
  - specialize (A h t). rewrite E, cnt_cons, F in A. assert (0 < cnt (isS h) r) by (apply cnt_pos; eauto). lia.
  - apply N. symmetry. apply (B h); auto. apply cnt_pos. eauto.
Qed.

(** One step that concerns search h only. *)
Lemma one_search s t f r new s' h :
  inv3 s -> inv4 s -> stk s t = f :: r -> stk s' = upd (stk s) t (new ++ r) -> next s' = next s ->
  (forall x, x <> h -> keep s s' x) ->
  (isS h f = true \/ In h (known s) \/ In h (regs s)) ->
  mono s s' h -> (isS h f = false -> mono6 s s' h) -> good s' h -> h < next s ->
  NoDup (gone s') ->
  (forall g, In g new -> sfact s' g /\ fact6 s' g /\ nfact s' g) -> inv4 s'.
Proof.
  intros I3 I4 E ES EN K A M M6 G LT ND NEW.
  assert (OLD : forall x g, In g (stk s' x) -> In g new \/ ((In g r \/ exists x, x <> t /\ In g (stk s x)) /\ exists y, In g (stk s y))).
  { intros x g. rewrite ES. intros I. destruct (frames_upd _ _ _ _ _ _ _ E I) as [[_ H]|[H|[N H]]]; auto; right.
    - split; auto. exists t. rewrite E. now right.
    - split; [right|]; eauto. }
  assert (MM : forall x, mono s s' x).
  { intros x. destruct (Nat.eq_dec x h) as [->|N]; auto. apply keep_mono. auto. }
  constructor.
  - intros x g I. destruct (OLD x g I) as [N|[O [y Y]]]; [apply NEW; auto|]. pose proof (j_s _ I4 y g Y) as SF.
    destruct (pre g) as [k|] eqn:P; [|now apply sfact_none]. apply (keep_s s s' g k P); auto. apply K. intros ->.
    destruct A as [A|[A|A]].
    + apply (other_pre s t f r h g I3 E A O). now apply pre_isS.
    + destruct g; cbn in P; try discriminate; try destruct ok; try destruct i; try discriminate; injection P as ->; cbn in SF;
        destruct SF as [[] _]; contradiction.
    + destruct g; cbn in P; try discriminate; try destruct ok; try destruct i; try discriminate; injection P as ->; cbn in SF;
        destruct SF as [[] _]; contradiction.
  - intros x g I. destruct (OLD x g I) as [N|[O [y Y]]]; [apply NEW; auto|]. apply mono_6 with (s := s); [|apply (j_6 _ I4 y g Y)].
    intros k ->. destruct (Nat.eq_dec k h) as [->|N]; [|apply keep_mono6; auto].
    destruct (isS h f) eqn:F; auto. exfalso. eapply other_pre; eauto. cbn. apply Nat.eqb_refl.
  - intros x g I. destruct (OLD x g I) as [N|[O [y Y]]]; [apply NEW; auto|]. apply mono_n with (s := s); auto. apply (j_n _ I4 y g Y).
  - intros x. destruct (Nat.eq_dec x h) as [->|N]; auto. apply keep_good with s; auto. apply (j_g _ I4).
  - intros x L. rewrite EN in L. apply keep_blank with s; [|apply (j_b _ I4); auto]. apply K. lia.
  - exact ND.
Qed.

(** One step that concerns no search. *)
Lemma no_search s t f r new s' :
  inv4 s -> stk s t = f :: r -> stk s' = upd (stk s) t (new ++ r) -> next s' = next s ->
  (forall x, keep s s' x) -> NoDup (gone s') ->
  (forall g, In g new -> sfact s' g /\ fact6 s' g /\ nfact s' g) -> inv4 s'.
Proof.
  intros I4 E ES EN K ND NEW.
  assert (OLD : forall x g, In g (stk s' x) -> In g new \/ exists y, In g (stk s y)).
  { intros x g. rewrite ES. intros I. destruct (frames_upd _ _ _ _ _ _ _ E I) as [[_ H]|[H|[N H]]]; auto; right; eauto.
    exists t. rewrite E. now right. }
  constructor.
  - intros x g I. destruct (OLD x g I) as [N|[y Y]]; [apply NEW; auto|]. pose proof (j_s _ I4 y g Y) as SF.
    destruct (pre g) as [k|] eqn:P; [|now apply sfact_none]. apply (keep_s s s' g k P); auto.
  - intros x g I. destruct (OLD x g I) as [N|[y Y]]; [apply NEW; auto|]. apply mono_6 with (s := s); [|apply (j_6 _ I4 y g Y)].
    intros k _. apply keep_mono6; auto.
  - intros x g I. destruct (OLD x g I) as [N|[y Y]]; [apply NEW; auto|]. apply mono_n with (s := s); [|apply (j_n _ I4 y g Y)].
    intros k. apply keep_mono; auto.
  - intros x. apply keep_good with s; auto. apply (j_g _ I4).
  - intros x L. rewrite EN in L. apply keep_blank with s; [|apply (j_b _ I4); auto]. apply K.
  - exact ND.
Qed.

Lemma inv4_init : inv4 init.
Proof.
  assert (B : forall h, blank init h) by (intros h; split; [constructor|]; cbn; auto).
  constructor.
  - intros [|t] f [<-|[]]; exact Logic.I.
  - intros [|t] f [<-|[]]; exact Logic.I.
  - intros [|t] f [<-|[]]; exact Logic.I.
  - intros h. constructor; cbn; try tauto; lia.
  - intros h _. apply B.
  - constructor.
Qed.

Lemma known_lt s h : inv4 s -> In h (known s) -> h < next s.
Proof. intros I K. destruct (le_lt_dec (next s) h) as [L|]; auto. destruct (j_b _ I h L) as [[] _]. contradiction. Qed.
Lemma regs_lt s h : inv4 s -> In h (regs s) -> h < next s.
Proof. intros I K. destruct (le_lt_dec (next s) h) as [L|]; auto. destruct (j_b _ I h L) as [[] _]. contradiction. Qed.

Arguments del : simpl never.
Arguments mem : simpl never.
Ltac keepx := intros x NX; constructor; cbn; rewrite ?del_In; try tauto; try (rewrite upd_other by auto; reflexivity);
  try (split; intros; intuition congruence); try (intros; intuition congruence).

Lemma inv4_tr s t s' : inv1 s -> inv2 s -> inv3 s -> inv4 s -> tr s t s' -> inv4 s'.
Proof.
  intros I1 I2 I3 I4 T. pose proof (i_wf _ I1 t) as Ft.
  assert (TOP : forall f r, stk s t = f :: r -> sfact s f /\ fact6 s f /\ nfact s f).
  { intros f r E. assert (In f (stk s t)) by (rewrite E; now left). split; [|split]; [eapply j_s|eapply j_6|eapply j_n]; eauto. }
  assert (SLT : forall f r h, stk s t = f :: r -> isS h f = true -> h < next s).
  { intros f r h E P. apply (i_lt _ I3 h t). apply cnt_pos. exists f. rewrite E. split; auto. now left. }
  pose proof (j_nd _ I4) as ND.
  destruct T as [f r b E U|f r h E U K|h r E|h r E|h b r m E L|h r m E L|h r m E L|h ok fo r m E L|h r m E L|h r m E L|h i r m E L|h i r m E L|h i r m E L|h i r m E L|h i r m E L|r m E L|r m E L|h r E K NK];
    destruct (TOP _ _ E) as (TS & T6 & TN); cbn [sfact fact6 nfact] in TS, T6, TN.
  - (* StartFindService is called *)
    assert (KK : forall x, x <> next s -> keep s (enter_start s t b (f :: r)) x).
    { intros x NX. constructor; cbn; try tauto. destruct b; cbn; [tauto|]. split; auto. intros [<-|]; auto. contradiction. }
    assert (BL : forall h, next s <= h -> blank s h) by apply (j_b _ I4).
    assert (FB : early (enter_start s t b (f :: r)) (next s) /\ ~ In (next s) (stored s) /\ ~ In (next s) (insts s) /\
       (In (next s) (if b then unres s else next s :: unres s) <-> b = false)).
    { destruct (BL (next s) (le_n _)) as [[] (B2 & B3 & B4)]. split; [constructor; cbn; auto|]. split; auto. split; auto.
      destruct b; cbn; split; auto; try tauto. discriminate. }
    assert (OLD : forall x g, In g (upd (stk s) t (FStart1 (next s) b :: f :: r) x) -> g = FStart1 (next s) b \/ exists y, In g (stk s y)).
    { intros x g. unfold upd. destruct (x =? t); [|eauto]. intros [<-|H]; auto. right. exists t. now rewrite E. }
    constructor.
    + intros x g I. destruct (OLD x g I) as [->|[y Y]]; [exact FB|]. pose proof (j_s _ I4 y g Y) as SF.
      destruct (pre g) as [k|] eqn:P; [|now apply sfact_none]. apply (keep_s s _ g k P); auto. apply KK.
      assert (k < next s); [|lia]. apply (i_lt _ I3 k y). apply cnt_pos. exists g. split; auto. now apply pre_isS.
    + intros x g I. destruct (OLD x g I) as [->|[y Y]]; [exact Logic.I|]. apply mono_6 with (s := s); [|apply (j_6 _ I4 y g Y)].
      intros k ->. apply keep_mono6, KK. assert (k < next s); [|lia]. apply (i_lt _ I3 k y). apply cnt_pos. eexists. split; eauto. cbn. apply Nat.eqb_refl.
    + intros x g I. destruct (OLD x g I) as [->|[y Y]]; [exact Logic.I|]. apply mono_n with (s := s); [|apply (j_n _ I4 y g Y)].
      intros k. destruct (Nat.eq_dec k (next s)) as [->|N]; [|apply keep_mono; auto].
      destruct FB as [[] _]. cbn in *. constructor; cbn; tauto.
    + intros h. destruct (Nat.eq_dec h (next s)) as [->|N]; [|apply keep_good with s; auto; apply (j_g _ I4)].
      destruct FB as [[] (B2 & B3 & B4)]. cbn in *. constructor; cbn; try tauto; try lia; rewrite ?e_rf0; try lia.
    + intros h Lh. cbn in Lh. apply keep_blank with s; [|apply BL; lia]. apply KK. lia.
    + exact ND.
  - (* StopFindService is called *)
    pose proof (j_g _ I4 h) as [].
    apply (one_search s t f r [FStop1 h false; f] _ h); auto; cbn; auto using known_lt.
    + keepx.
    + constructor; cbn; tauto.
    + intros _ (A & B & C & D). cbn. repeat split; auto; tauto.
    + constructor; cbn; try tauto; try (intros Z; destruct (g_fail0 Z); contradiction).
    + intros g [<-|[<-|[]]]; cbn; [tauto|]. destruct f; cbn in *; try discriminate; auto.
  - (* a call of the handler returns *)
    rewrite E in Ft. cbn in Ft. destruct Ft as [A WF].
    assert (W : 0 < cnt hW (stk s t)) by (rewrite E; destruct r as [|[] r]; try contradiction; rewrite !cnt_cons; cbn; lia).
    assert (RF : refs s h = 1).
    { pose proof (refs_handlers s t h I1 I2 W) as Q. rewrite E, cnt_cons in Q. cbn -[cnt] in Q. rewrite Nat.eqb_refl in Q.
      pose proof (g_ref _ _ (j_g _ I4 h)). lia. }
    pose proof (j_g _ I4 h) as []. rewrite RF in *. destruct TN as [TN TC].
    assert (NG : ~ In h (gone s)) by (intros Z; destruct (g_gone0 Z); lia).
    unfold drop. rewrite RF. cbn [Nat.sub]. rewrite andb_true_r. destruct (mem h (stored s)) eqn:ST; cbn [negb].
    + apply mem_In in ST. apply (one_search s t (FHandler h) r [] _ h); auto; cbn; auto using known_lt.
      * keepx.
      * constructor; cbn; tauto.
      * intros _ Q. exact Q.
      * constructor; cbn; rewrite ?upd_same; try tauto; try lia.
        intros Z. destruct (g_fail0 Z). contradiction.
      * intros g [].
    + apply mem_nIn in ST. apply (one_search s t (FHandler h) r [FDtor h] _ h); auto; cbn; auto using known_lt.
      * keepx.
      * constructor; cbn; tauto.
      * intros _ Q. exact Q.
      * constructor; cbn; rewrite ?upd_same; try tauto; try lia.
        intros Z. destruct (g_fail0 Z). contradiction.
      * constructor; auto.
      * intros g [<-|[]]. cbn. tauto.
  - (* a destructor returns *)
    apply (no_search s t (FDtor h) r []); auto; [intros x; constructor; cbn; tauto|intros g []].
  - (* the handler is stored *)
    pose proof (SLT _ _ h E (Nat.eqb_refl h)) as LT. destruct TS as ([] & A & B & C). pose proof (j_g _ I4 h) as [].
    apply (one_search s t (FStart1 h b) r [FStart3 h b] _ h); auto; cbn; auto using Nat.eqb_refl.
    + keepx. destruct b; cbn; [|tauto]. split; auto. intros [->|]; auto. contradiction.
    + constructor; cbn; tauto.
    + rewrite Nat.eqb_refl. discriminate.
    + constructor; cbn; try tauto; try lia; destruct b; cbn; try tauto; try lia.
      intros Z. apply C in Z. discriminate.
    + intros g [<-|[]]. cbn. split; [|tauto]. split; [constructor; cbn; auto|]. split; auto. split; [|auto].
      destruct b; cbn; split; auto; try tauto; try discriminate.
  - apply (no_search s t (FStart3 h true) r [FStart4 h]); auto; [intros x; constructor; cbn; tauto|]. intros g [<-|[]]. cbn.
    destruct TS as ([] & A & B & C). split; [|tauto]. split; [constructor; cbn; auto|]. intuition discriminate.
  - (* StartFindService returns without a search *)
    pose proof (SLT _ _ h E (Nat.eqb_refl h)) as LT. destruct TS as ([] & A & B & C). pose proof (j_g _ I4 h) as [].
    assert (UN : In h (unres s)) by (now apply C).
    apply (one_search s t (FStart3 h false) r [] _ h); auto; cbn; auto using Nat.eqb_refl.
    + keepx.
    + constructor; cbn; tauto.
    + rewrite Nat.eqb_refl. discriminate.
    + constructor; cbn; try tauto; try lia.
    + intros g [].
  - (* the client registers the search *)
    pose proof (SLT _ _ h E (Nat.eqb_refl h)) as LT. destruct TS as ([] & A & B & C). pose proof (j_g _ I4 h) as [].
    unfold register. destruct ok; [destruct fo|].
    + unfold invoke. cbn [stored]. cbn [set_mw stored]. rewrite (proj2 (mem_In h (stored s)) A). cbn [orb].
      apply (one_search s t (FStart4 h) r [FHandler h; FStart6 h true] _ h); auto; cbn; auto using Nat.eqb_refl.
      * keepx.
      * constructor; cbn; tauto.
      * rewrite Nat.eqb_refl. discriminate.
      * constructor; cbn; rewrite ?upd_same, ?e_rf0; try tauto; try lia.
      * intros g [<-|[<-|[]]]; cbn; tauto.
    + apply (one_search s t (FStart4 h) r [FStart6 h true] _ h); auto; cbn; auto using Nat.eqb_refl.
      * keepx.
      * constructor; cbn; tauto.
      * rewrite Nat.eqb_refl. discriminate.
      * constructor; cbn; try tauto; try lia.
      * intros g [<-|[]]; cbn; tauto.
    + apply (no_search s t (FStart4 h) r [FStart6 h false]); auto; [intros x; constructor; cbn; tauto|]. intros g [<-|[]]. cbn.
      split; [|tauto]. split; [constructor; cbn; auto|]. tauto.
  - (* StartFindService returns *)
    pose proof (SLT _ _ h E (Nat.eqb_refl h)) as LT. destruct T6 as (A & B & C & D). pose proof (j_g _ I4 h) as [].
    apply (one_search s t (FStart6 h true) r [] _ h); auto; cbn; auto using Nat.eqb_refl.
    + keepx.
    + constructor; cbn; tauto.
    + rewrite Nat.eqb_refl. discriminate.
    + constructor; cbn; try tauto; try lia.
      intros _. destruct (in_dec Nat.eq_dec h (stops s)) as [Z|Z]; tauto.
    + intros g [].
  - apply (no_search s t (FStart6 h false) r [FStop1 h true]); auto; [intros x; constructor; cbn; tauto|]. intros g [<-|[]]. cbn.
    destruct TS as ([] & A & B & C). split; [|tauto]. split; [constructor; cbn; auto|]. tauto.
  - (* StopFindService takes the search out *)
    pose proof (j_g _ I4 h) as [].
    assert (LT : h < next s).
    { destruct i; [apply (SLT _ _ h E (Nat.eqb_refl h))|apply known_lt; tauto]. }
    unfold erase. destruct (mem h (stored s) && (refs s h =? 0)) eqn:LAST; cbn [set_mc stored refs] in LAST |- *; rewrite LAST.
    + apply andb_prop in LAST as [ST RF]. apply mem_In in ST. apply Nat.eqb_eq in RF.
      apply (one_search s t (FStop1 h i) r [FDtor h; FStop3 h i (mem h (insts s))] _ h); auto; cbn [stk next gone isS]; auto.
      * keepx.
      * destruct i; [left; apply Nat.eqb_refl|tauto].
      * constructor; cbn; rewrite ?del_In; tauto.
      * intros Q. destruct i; [rewrite Nat.eqb_refl in Q; discriminate|]. intros Z. cbn in *. tauto.
      * constructor; cbn; rewrite ?del_In; try tauto; try lia.
        -- intros Z Z2. destruct i; [destruct TS as [[] _]|]; tauto.
        -- intros Z. destruct (g_fail0 Z). contradiction.
      * constructor; auto. intros Z. destruct (g_gone0 Z). contradiction.
      * intros g [<-|[<-|[]]]; cbn [sfact fact6 nfact]; [cbn; tauto|]. destruct i.
        -- destruct TS as ([] & A & B & C). split; [|tauto]. split; [constructor; cbn; rewrite ?del_In; tauto|]. split; auto. now apply mem_In.
        -- cbn. rewrite !del_In. repeat split; try tauto. intros Z. apply mem_In in Z. tauto.
    + apply (one_search s t (FStop1 h i) r [FStop3 h i (mem h (insts s))] _ h); auto; cbn [stk next gone isS]; auto.
      * keepx.
      * destruct i; [left; apply Nat.eqb_refl|tauto].
      * constructor; cbn; rewrite ?del_In; tauto.
      * intros Q. destruct i; [rewrite Nat.eqb_refl in Q; discriminate|]. intros Z. cbn in *. tauto.
      * assert (N : In h (stored s) -> 0 < refs s h).
        { intros Z. apply mem_In in Z. rewrite Z in LAST. cbn in LAST. apply Nat.eqb_neq in LAST. lia. }
        constructor; cbn; rewrite ?del_In; try tauto; try lia.
        -- intros Z Z2. destruct i; [destruct TS as [[] _]|]; tauto.
        -- intros Z. destruct (g_fail0 Z). constructor; cbn; rewrite ?del_In; tauto.
      * intros g [<-|[]]; cbn [sfact fact6 nfact]. destruct i.
        -- exfalso. destruct TS as ([] & A & _). apply mem_In in A. rewrite A, e_rf0 in LAST. discriminate.
        -- cbn. rewrite !del_In. repeat split; try tauto. intros Z. apply mem_In in Z. tauto.
  - apply (no_search s t (FStop3 h i true) r [FStop4 h i]); auto; [intros x; constructor; cbn; tauto|]. intros g [<-|[]]. destruct i; cbn.
    + destruct TS as ([] & A & B). split; [|tauto]. split; [constructor; cbn; tauto|]. tauto.
    + tauto.
  - (* StopFindService returns at once *)
    destruct i; [destruct TS as (_ & Z & _); discriminate|].
    apply (no_search s t (FStop3 h false false) r []); auto; [intros x; constructor; cbn; tauto|intros g []].
  - (* the client marks the search as obsolete *)
    pose proof (j_g _ I4 h) as [].
    assert (LT : h < next s).
    { destruct i; [apply (SLT _ _ h E (Nat.eqb_refl h))|apply known_lt; tauto]. }
    apply (one_search s t (FStop4 h i) r [FStop6 h i] _ h); auto; cbn [stk next gone isS]; auto.
    + keepx.
    + destruct i; [left; apply Nat.eqb_refl|tauto].
    + constructor; cbn; tauto.
    + intros Q. destruct i; [rewrite Nat.eqb_refl in Q; discriminate|]. intros Z. cbn in *. tauto.
    + constructor; cbn; try tauto; try lia.
      * intros Z Z2. destruct i; [destruct TS as [[] _]|]; tauto.
      * intros Z. destruct (g_fail0 Z). constructor; cbn; tauto.
    + intros g [<-|[]]. destruct i; cbn; [|tauto]. destruct TS as ([] & A). split; [|tauto]. split; [constructor; cbn; tauto|]. tauto.
  - (* StopFindService returns *)
    pose proof (j_g _ I4 h) as [].
    assert (LT : h < next s).
    { destruct i; [apply (SLT _ _ h E (Nat.eqb_refl h))|apply known_lt; tauto]. }
    destruct i.
    + destruct TS as ([] & A).
      apply (one_search s t (FStop6 h true) r [] _ h); auto; cbn [stk next gone isS]; auto using Nat.eqb_refl.
      * keepx.
      * constructor; cbn; tauto.
      * rewrite Nat.eqb_refl. discriminate.
      * constructor; cbn; try tauto; try lia. intros _. constructor; cbn; tauto.
      * intros g [].
    + apply (no_search s t (FStop6 h false) r []); auto; [intros x; constructor; cbn; tauto|intros g []].
  - (* the worker thread forgets obsolete searches *)
    apply (no_search s t FLoop r [FEv]); auto.
    + intros x. constructor; cbn; try tauto.
      * rewrite filter_In. tauto.
      * rewrite filter_In. intros A B. split; auto. apply negb_true_iff. now apply mem_nIn.
    + intros g [<-|[]]. cbn. auto.
  - apply (no_search s t FEv r [FLoop]); auto; [intros x; constructor; cbn; tauto|]. intros g [<-|[]]. cbn. auto.
  - (* the worker thread calls a handler *)
    rewrite E in Ft. cbn in Ft. subst r.
    assert (RF : refs s h = 0).
    { rewrite (refs_handlers s t h I1 I2); rewrite E; cbn; auto. }
    pose proof (j_g _ I4 h) as []. pose proof (regs_lt _ _ I4 K) as LT.
    unfold invoke. rewrite RF. cbn [Nat.eqb negb]. rewrite orb_false_r. destruct (mem h (stored s)) eqn:ST.
    + apply mem_In in ST. apply (one_search s t FEv [] [FHandler h; FEv] _ h); auto; cbn; auto.
      * keepx.
      * constructor; cbn; tauto.
      * intros _ Z. cbn in *. tauto.
      * constructor; cbn; rewrite ?upd_same; try tauto; try lia.
        intros Z. destruct (g_fail0 Z). contradiction.
      * intros g [<-|[<-|[]]]; cbn; tauto.
    + apply (no_search s t FEv [] [FEv]); auto; [intros x; constructor; cbn; tauto|]. intros g [<-|[]]. cbn. auto.
Qed.
