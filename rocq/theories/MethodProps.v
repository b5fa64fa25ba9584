(** C73: a method call runs the provider's handler on the calling proxy's own memory;
    C74: consumers do not terminate the provider through the method interface. *)
From Verif Require Import Base MethodModel.

(** * Specification vocabulary (over histories, newest operation first) *)

(** The process of an application that subscribed last. *)
Fixpoint last_pid (h : hist) (a : app) : option nat :=
  match h with
  | [] => None
  | (Subscribe p _ _ _, _) :: r => if p_app p =? a then Some (p_pid p) else last_pid r a
  | _ :: r => last_pid r a
  end.

(** p subscribed successfully, and neither unsubscribed nor did the provider stop offering since. *)
Definition active (h : hist) (p : proxy) (reg : nat) (ms : list mentry) : Prop :=
  exists h2 h1 b, h = h2 ++ (Subscribe p reg ms b, Done) :: h1
    /\ (forall x, ~ In (StopOffer, x) h2)
    /\ (forall x, ~ In (Unsubscribe (p_app p) (p_ctr p), x) h2).

(** What well-behaved consumers do, given the past. A subscribing proxy put in its region methods the
    service has, each once; a process does not come back once another process of its application has
    subscribed, and process ids are not reused; a proxy that subscribes again is the same in every
    respect. A proxy calls methods it has enabled, after a successful subscription, with positions
    inside its queue, and not after its process was replaced. *)
Definition coop (k : cfg) (h : hist) (o : op) : Prop :=
  match o with
  | Subscribe p reg ms _ =>
      (forall e, In e ms -> known k (e_m e) = true) /\ NoDup (map e_m ms)
      /\ (last_pid h (p_app p) = Some (p_pid p)
          \/ forall p' reg' ms' b x, In (Subscribe p' reg' ms' b, x) h -> p_app p' = p_app p -> p_pid p' <> p_pid p)
      /\ (forall p' reg' ms' b x, In (Subscribe p' reg' ms' b, x) h ->
            p_app p' = p_app p -> p_ctr p' = p_ctr p -> p_pid p' = p_pid p -> p' = p /\ reg' = reg /\ ms' = ms)
  | Call a c q m uid pos =>
      exists p reg ms b e, In (Subscribe p reg ms b, Done) h
        /\ a = p_app p /\ c = p_ctr p /\ q = p_q p /\ uid = p_uid p
        /\ In e ms /\ m = e_m e /\ (e_data e = true -> pos < e_len e)
        /\ last_pid h a = Some (p_pid p)
  | _ => True
  end.

(** All histories, and those of well-behaved consumers. *)
Inductive reach (k : cfg) (ok : hist -> op -> Prop) : st -> hist -> Prop :=
| reach_init : reach k ok init []
| reach_step s h o s' x :
    reach k ok s h -> ok h o -> step k s o = (s', x) -> reach k ok s' ((o, x) :: h).

Definition anything (h : hist) (o : op) : Prop := True.

(** * Who can have methods run: no assumption on consumers *)

Definition guard_of (p : proxy) (reg : nat) (e : mentry) : guard :=
  mkGuard (e_m e) (p_app p) (p_ctr p) (p_pid p) (p_uid p) (p_q p) reg (e_len e) (e_data e).

Lemma clean_sub m a pid l g : In g (clean_old_handlers m a pid l) -> In g l.
Proof.
  unfold clean_old_handlers. destruct (existsb _ l); [auto|]. rewrite filter_In. tauto.
Qed.

Lemma subscribe_methods_sub k p reg ms l l' g :
  subscribe_methods k p reg ms l = Some l' -> In g l' -> In g l \/ exists e, In e ms /\ g = guard_of p reg e.
Proof.
  revert l. induction ms as [|e r IH]; intros l H G; cbn [subscribe_methods] in H.
  - injection H as <-. auto.
  - destruct (known k (e_m e)); [|discriminate].
    destruct (subscribe_method p reg e l) as [l1|] eqn:E; [|discriminate].
    destruct (IH l1 H G) as [G1|(x & X1 & X2)]; [|right; exists x; split; [right; exact X1|exact X2]].
    unfold subscribe_method in E. destruct (existsb _ _) in E; [discriminate|]. injection E as <-.
    destruct G1 as [<-|G1]; [right; exists e; split; [left; reflexivity|reflexivity]|].
    left. exact (clean_sub _ _ _ _ _ G1).
Qed.

Lemma active_cons o x h p reg ms :
  active h p reg ms -> o <> StopOffer -> o <> Unsubscribe (p_app p) (p_ctr p) -> active ((o, x) :: h) p reg ms.
Proof.
  intros (h2 & h1 & b & -> & A & B) N1 N2. exists ((o, x) :: h2), h1, b. split; [reflexivity|].
  split; intros y [H|H]; try congruence; [exact (A y H)|exact (B y H)].
Qed.

Lemma active_new o h p reg ms b : o = Subscribe p reg ms b -> active ((o, Done) :: h) p reg ms.
Proof. intros ->. exists [], h, b. split; [reflexivity|]. split; intros x []. Qed.

Lemma call_state k s a c q m uid pos : fst (step k s (Call a c q m uid pos)) = s.
Proof.
  cbn [step]. destruct (find _ (guards s)) as [g|]; [|reflexivity].
  destruct (negb (g_uid g =? uid)); [reflexivity|].
  destruct (g_data g && negb (pos <? g_len g)); [reflexivity|].
  destruct (g_data g && _); reflexivity.
Qed.

Lemma call_step k s a c q m uid pos s' x : step k s (Call a c q m uid pos) = (s', x) -> s' = s.
Proof. intros H. generalize (call_state k s a c q m uid pos). rewrite H. cbn. auto. Qed.

Lemma guards_active k ok s h g : reach k ok s h -> In g (guards s) ->
  exists p reg ms e, active h p reg ms /\ In e ms /\ g = guard_of p reg e.
Proof.
  intros R. revert g. induction R as [|s h o s' x R IH OK S]; intros g G; [destruct G|].
  assert (S0 := S). destruct o as [| |p reg ms b|a c|a c q m uid pos]; cbn [step] in S.
  - injection S as <- <-. destruct (IH g G) as (p & reg & ms & e & A & E & Q).
    exists p, reg, ms, e. split; [apply active_cons; [exact A|discriminate|discriminate]|auto].
  - injection S as <- <-. destruct G.
  - assert (Old : In g (guards s) -> exists p0 reg0 ms0 e, active ((Subscribe p reg ms b, x) :: h) p0 reg0 ms0 /\ In e ms0 /\ g = guard_of p0 reg0 e).
    { intros G0. destruct (IH g G0) as (p0 & reg0 & ms0 & e & A & E & Q).
      exists p0, reg0, ms0, e. split; [apply active_cons; [exact A|discriminate|discriminate]|auto]. }
    destruct (negb (offered s)); [injection S as <- _; auto|].
    destruct (negb (allowed k (p_q p) (p_uid p))); [injection S as <- _; auto|].
    destruct (contains s (p_app p) (p_ctr p) (p_pid p)); [injection S as <- _; auto|].
    destruct b; cbn [negb] in S; [|injection S as <- _; auto].
    destruct (subscribe_methods k p reg ms (guards s)) as [gs|] eqn:E; injection S as <- <-; [|auto].
    destruct (subscribe_methods_sub _ _ _ _ _ _ g E G) as [G0|(e & E1 & E2)]; [auto|].
    exists p, reg, ms, e. split; [apply (active_new _ _ _ _ _ true); reflexivity|auto].
  - destruct (negb (offered s)) eqn:Off; injection S as <- <-.
    + (* not offered: nothing is registered *)
      assert (Em : forall s h, reach k ok s h -> offered s = false -> guards s = []).
      { clear. induction 1 as [|s h o s' x R IH OK S]; [reflexivity|]. intros F.
        assert (S0 := S). destruct o as [| |p reg ms b|a c|a c q m uid pos]; cbn [step] in S.
        - injection S as <- <-. discriminate.
        - injection S as <- <-. reflexivity.
        - destruct (offered s) eqn:O; cbn [negb] in S; [|injection S as <- _; auto].
          destruct (negb (allowed k (p_q p) (p_uid p))); [injection S as <- _; congruence|].
          destruct (contains s (p_app p) (p_ctr p) (p_pid p)); [injection S as <- _; congruence|].
          destruct (negb b); [injection S as <- _; discriminate|].
          destruct (subscribe_methods k p reg ms (guards s)); injection S as <- _; [discriminate|congruence].
        - destruct (offered s) eqn:O; cbn [negb] in S; injection S as <- _; [discriminate|auto].
        - rewrite (call_step _ _ _ _ _ _ _ _ _ _ S0) in *. auto. }
      apply negb_true_iff in Off. rewrite (Em s h R Off) in G. destruct G.
    + cbn in G. apply filter_In in G. destruct G as [G K]. destruct (IH g G) as (p & reg & ms & e & A & E & Q).
      exists p, reg, ms, e. split; [|auto]. apply active_cons; [exact A|discriminate|].
      intros Z. injection Z as Za Zc. subst a c g. cbn in K. rewrite !Nat.eqb_refl in K. discriminate.
  - rewrite (call_step _ _ _ _ _ _ _ _ _ _ S0) in G.
    destruct (IH g G) as (p & reg & ms & e & A & E & Q).
    exists p, reg, ms, e. split; [apply active_cons; [exact A|discriminate|discriminate]|auto].
Qed.

(** Whatever consumers do: a handler runs only for the user that subscribed the named proxy to that
    method at that quality level, on the region of that subscription, and only while it lasts. *)
Theorem C73_only_for_subscribers k s h a c q m uid pos reg :
  reach k anything s h -> snd (step k s (Call a c q m uid pos)) = Ran reg pos ->
  exists p ms e, active h p reg ms /\ p_app p = a /\ p_ctr p = c /\ p_q p = q /\ p_uid p = uid
                 /\ In e ms /\ e_m e = m.
Proof.
  intros R H. cbn [step] in H.
  destruct (find _ (guards s)) as [g|] eqn:F; [|discriminate].
  apply find_some in F. destruct F as [G K].
  apply andb_prop in K. destruct K as [K K4]. apply andb_prop in K. destruct K as [K K3].
  apply andb_prop in K. destruct K as [K1 K2].
  apply Nat.eqb_eq in K1, K2, K3. apply Bool.eqb_prop in K4.
  destruct (g_uid g =? uid) eqn:U; cbn [negb] in H; [|discriminate]. apply Nat.eqb_eq in U.
  destruct (_ && _) in H; [discriminate|]. destruct (_ && _) in H; [discriminate|].
  cbn [snd] in H. injection H as <-.
  destruct (guards_active k anything s h g R G) as (p & reg & ms & e & A & E & Q). subst g. cbn in *.
  exists p, ms, e. auto 10.
Qed.

(** * Well-behaved consumers *)

(** Result of registering the methods of p, as a set. *)
Lemma subscribe_methods_ok k p reg ms : forall l,
  (forall e, In e ms -> known k (e_m e) = true) -> NoDup (map e_m ms) ->
  (forall g, In g l -> g_app g = p_app p -> g_pid g = p_pid p -> g_ctr g = p_ctr p -> ~ In (g_m g) (map e_m ms)) ->
  (forall g g', In g l -> In g' l -> g_m g = g_m g' -> g_app g = g_app g' -> g_pid g = g_pid g') ->
  exists l', subscribe_methods k p reg ms l = Some l' /\
    forall g, In g l' <-> (exists e, In e ms /\ g = guard_of p reg e)
                          \/ (In g l /\ ~ (g_app g = p_app p /\ g_pid g <> p_pid p /\ In (g_m g) (map e_m ms))).
Proof.
  induction ms as [|e r IH]; intros l K N P1 P2.
  - exists l. split; [reflexivity|]. intros g. cbn. split; [intros G; right; tauto|].
    intros [(x & [] & _)|[G _]]. exact G.
  - cbn [map] in N. inversion N as [|? ? N1 N2]; subst. cbn [subscribe_methods].
    rewrite (K e (or_introl eq_refl)).
    (* the old handlers *)
    assert (C : forall g, In g (clean_old_handlers (e_m e) (p_app p) (p_pid p) l) <->
                In g l /\ ~ (g_m g = e_m e /\ g_app g = p_app p /\ g_pid g <> p_pid p)).
    { intros g. unfold clean_old_handlers. destruct (existsb _ l) eqn:Ex.
      - apply existsb_exists in Ex. destruct Ex as (z & Z1 & Z2).
        apply andb_prop in Z2. destruct Z2 as [Z2 Z4]. apply andb_prop in Z2. destruct Z2 as [Z2 Z3].
        apply Nat.eqb_eq in Z2, Z3, Z4. split; [|tauto]. intros G. split; [exact G|]. intros (Q1 & Q2 & Q3).
        apply Q3. rewrite <- Z4. apply (P2 g z G Z1); congruence.
      - rewrite filter_In. split; intros [G Q]; (split; [exact G|]).
        + intros (Q1 & Q2 & _). rewrite Q1, Q2, !Nat.eqb_refl in Q. discriminate.
        + destruct (Nat.eqb_spec (g_m g) (e_m e)); [|reflexivity].
          destruct (Nat.eqb_spec (g_app g) (p_app p)); [|reflexivity]. exfalso. apply Q.
          split; [assumption|]. split; [assumption|]. intros Z.
          assert (Ex' : existsb (fun g => (g_m g =? e_m e) && (g_app g =? p_app p) && (g_pid g =? p_pid p)) l = true).
          { apply existsb_exists. exists g. split; [exact G|]. rewrite !andb_true_iff, !Nat.eqb_eq. auto. }
          congruence. }
    unfold subscribe_method. set (l1 := clean_old_handlers (e_m e) (p_app p) (p_pid p) l) in *.
    destruct (existsb (fun g => (g_m g =? e_m e) && (g_app g =? p_app p) && (g_ctr g =? p_ctr p)) l1) eqn:Ex.
    { exfalso. apply existsb_exists in Ex. destruct Ex as (z & Z1 & Z2).
      apply andb_prop in Z2. destruct Z2 as [Z2 Z4]. apply andb_prop in Z2. destruct Z2 as [Z2 Z3].
      apply Nat.eqb_eq in Z2, Z3, Z4. apply C in Z1. destruct Z1 as [Z1 Z5].
      destruct (Nat.eq_dec (g_pid z) (p_pid p)) as [Zp|Zp]; [|tauto].
      apply (P1 z Z1 Z3 Zp Z4). left. congruence. }
    fold (guard_of p reg e).
    destruct (IH (guard_of p reg e :: l1)) as (l' & E & Q).
    + intros x X. apply K. right. exact X.
    + exact N2.
    + intros g [<-|G] A1 A2 A3; cbn; [exact N1|]. apply C in G. destruct G as [G _].
      intros X. apply (P1 g G A1 A2 A3). right. exact X.
    + intros g g' [<-|G] [<-|G'] M A; [reflexivity| | |].
      * apply C in G'. destruct G' as [G' Q]. cbn in M, A |- *.
        destruct (Nat.eq_dec (g_pid g') (p_pid p)); [congruence|]. exfalso. apply Q. auto.
      * apply C in G. destruct G as [G Q]. cbn in M, A |- *.
        destruct (Nat.eq_dec (g_pid g) (p_pid p)); [congruence|]. exfalso. apply Q. auto.
      * apply C in G, G'. apply P2; tauto.
    + exists l'. split; [exact E|]. intros g. rewrite Q. cbn [In map]. rewrite C. split.
      * intros [(x & X1 & X2)|[[<-|G] Y]].
        -- left. exists x. auto.
        -- left. exists e. auto.
        -- right. split; [tauto|]. intros (Y1 & Y2 & [Y3|Y3]); [|tauto].
           destruct G as [_ G]. apply G. auto.
      * intros [(x & [<-|X1] & X2)|[G Y]].
        -- right. split; [left; congruence|]. subst g. cbn. intros (_ & Z & _). congruence.
        -- left. exists x. auto.
        -- right. split; [right; split; [exact G|]; intros (Y1 & Y2 & Y3); apply Y; auto|]. tauto.
Qed.

Definition sub (h : hist) (p : proxy) (reg : nat) (ms : list mentry) : Prop :=
  exists b x, In (Subscribe p reg ms b, x) h.

Definition res_of (p : proxy) (reg : nat) : rentry := mkRes (p_app p) (p_pid p) (p_ctr p) reg.

Record inv (s : st) (h : hist) : Prop := mkInv {
  i_org : forall g, In g (guards s) -> exists p reg ms e, sub h p reg ms /\ In e ms /\ g = guard_of p reg e;
  i_live : forall g, In g (guards s) -> last_pid h (g_app g) = Some (g_pid g) ->
             In (mkRes (g_app g) (g_pid g) (g_ctr g) (g_reg g)) (res s);
  i_pid : forall r r', In r (res s) -> In r' (res s) -> r_app r = r_app r' -> r_pid r = r_pid r';
  i_gpid : forall g g', In g (guards s) -> In g' (guards s) -> g_m g = g_m g' -> g_app g = g_app g' -> g_pid g = g_pid g';
  i_key : forall g g', In g (guards s) -> In g' (guards s) -> g_m g = g_m g' -> g_app g = g_app g' -> g_ctr g = g_ctr g' -> g = g';
  i_res : forall r, In r (res s) -> exists p reg ms, sub h p reg ms /\ r = res_of p reg
             /\ forall e, In e ms -> In (guard_of p reg e) (guards s);
  i_own : forall p reg ms b g, In (Subscribe p reg ms b, Done) h -> last_pid h (p_app p) = Some (p_pid p) ->
             In g (guards s) -> g_app g = p_app p -> g_ctr g = p_ctr p -> In (g_m g) (map e_m ms) -> g_pid g = p_pid p;
  i_same : forall p reg ms p' reg' ms', sub h p reg ms -> sub h p' reg' ms' ->
             p_app p' = p_app p -> p_ctr p' = p_ctr p -> p_pid p' = p_pid p -> p' = p /\ reg' = reg /\ ms' = ms;
  i_nodup : forall p reg ms, sub h p reg ms -> NoDup (map e_m ms);
  i_act : forall p reg ms, active h p reg ms -> last_pid h (p_app p) = Some (p_pid p) ->
             In (res_of p reg) (res s);
}.

Lemma sub_cons o x h p reg ms : sub h p reg ms -> sub ((o, x) :: h) p reg ms.
Proof. intros (b & y & H). exists b, y. right. exact H. Qed.

Lemma sub_cons_inv o x h p reg ms : sub ((o, x) :: h) p reg ms ->
  sub h p reg ms \/ exists b, o = Subscribe p reg ms b.
Proof. intros (b & y & [H|H]); [right; exists b; congruence|left; exists b, y; exact H]. Qed.

Lemma last_sub h a pid : last_pid h a = Some pid -> exists p reg ms, sub h p reg ms /\ p_app p = a /\ p_pid p = pid.
Proof.
  induction h as [|[o x] r IH]; cbn; [discriminate|].
  destruct o as [| |p reg ms b| |];
    try (intros H; destruct (IH H) as (p0 & r0 & m0 & A & B); exists p0, r0, m0; split; [apply sub_cons, A|exact B]).
  destruct (Nat.eqb_spec (p_app p) a) as [E|E].
  - intros H. injection H as <-. exists p, reg, ms. split; [exists b, x; left; reflexivity|auto].
  - intros H. destruct (IH H) as (p0 & r0 & m0 & A & B). exists p0, r0, m0. split; [apply sub_cons, A|exact B].
Qed.

Lemma active_inv o x h p reg ms : active ((o, x) :: h) p reg ms ->
  (active h p reg ms /\ o <> StopOffer /\ o <> Unsubscribe (p_app p) (p_ctr p))
  \/ (exists b, o = Subscribe p reg ms b) /\ x = Done.
Proof.
  intros (h2 & h1 & b & E & A & B). destruct h2 as [|[o' x'] r]; cbn in E; injection E as -> -> ->.
  - right. split; [exists b; reflexivity|reflexivity].
  - left. split; [exists r, h1, b; split; [reflexivity|]; split; intros y H; [apply (A y)|apply (B y)]; right; exact H|].
    split; intros ->; [apply (A x')|apply (B x')]; left; reflexivity.
Qed.

Lemma active_sub h p reg ms : active h p reg ms -> sub h p reg ms.
Proof. intros (h2 & h1 & b & -> & _). exists b, Done. apply in_or_app. right. left. reflexivity. Qed.

(** An operation other than Subscribe that leaves the state alone or only removes entries of one
    (application, counter) or everything. *)
Lemma inv_shrink s h s' o x :
  inv s h -> (forall p reg ms b, o <> Subscribe p reg ms b) ->
  (forall g, In g (guards s') -> In g (guards s)) ->
  (forall r, In r (res s') -> In r (res s)) ->
  (forall g, In g (guards s') -> In (mkRes (g_app g) (g_pid g) (g_ctr g) (g_reg g)) (res s) ->
             In (mkRes (g_app g) (g_pid g) (g_ctr g) (g_reg g)) (res s')) ->
  (forall r g, In r (res s') -> In g (guards s) -> g_app g = r_app r -> g_ctr g = r_ctr r -> In g (guards s')) ->
  (forall p reg, o <> StopOffer -> o <> Unsubscribe (p_app p) (p_ctr p) -> In (res_of p reg) (res s) -> In (res_of p reg) (res s')) ->
  inv s' ((o, x) :: h).
Proof.
  intros I N G R GR RG RA.
  assert (Lp : forall a, last_pid ((o, x) :: h) a = last_pid h a).
  { intros a. destruct o; try reflexivity. destruct (N p reg ms can_open eq_refl). }
  assert (Sb : forall p reg ms, sub ((o, x) :: h) p reg ms <-> sub h p reg ms).
  { intros p reg ms. split; [|apply sub_cons]. intros H. apply sub_cons_inv in H.
    destruct H as [H|(b & H)]; [exact H|destruct (N _ _ _ _ H)]. }
  constructor.
  - intros g H. destruct (i_org _ _ I g (G g H)) as (p & reg & ms & e & A & B). exists p, reg, ms, e.
    split; [apply Sb, A|exact B].
  - intros g H L. rewrite Lp in L. apply GR; [exact H|]. exact (i_live _ _ I g (G g H) L).
  - intros r r' A B. exact (i_pid _ _ I r r' (R r A) (R r' B)).
  - intros g g' A B. exact (i_gpid _ _ I g g' (G g A) (G g' B)).
  - intros g g' A B. exact (i_key _ _ I g g' (G g A) (G g' B)).
  - intros r H. destruct (i_res _ _ I r (R r H)) as (p & reg & ms & A & B & C). exists p, reg, ms.
    split; [apply Sb, A|]. split; [exact B|]. intros e E. apply (RG r _ H (C e E)); rewrite B; reflexivity.
  - intros p reg ms b g [H|H] L Hg; [injection H as H _; destruct (N _ _ _ _ H)|].
    rewrite Lp in L. exact (i_own _ _ I p reg ms b g H L (G g Hg)).
  - intros p reg ms p' reg' ms' A B. apply Sb in A, B. exact (i_same _ _ I _ _ _ _ _ _ A B).
  - intros p reg ms A. apply Sb in A. exact (i_nodup _ _ I _ _ _ A).
  - intros p reg ms A L. rewrite Lp in L. apply active_inv in A.
    destruct A as [(A & A1 & A2)|((b & A) & _)]; [|destruct (N _ _ _ _ A)].
    apply RA; [exact A1|exact A2|]. exact (i_act _ _ I p reg ms A L).
Qed.

Section Subscribing.
  Context (k : cfg) (s : st) (h : hist) (p : proxy) (reg : nat) (ms : list mentry) (b : bool) (x : outcome).
  Hypothesis (I : inv s h) (OK : coop k h (Subscribe p reg ms b)).
  Let h' := (Subscribe p reg ms b, x) :: h.

  (** A process id other than the subscriber's stays superseded or current as before. *)
  Lemma last_new a : last_pid h' a = if p_app p =? a then Some (p_pid p) else last_pid h a.
  Proof. reflexivity. Qed.

  (** If an entry's process is current now, it was before, or it is new. *)
  Lemma current_before a pid p0 r0 m0 :
    sub h p0 r0 m0 -> p_app p0 = a -> p_pid p0 = pid ->
    last_pid h' a = Some pid -> last_pid h a = Some pid.
  Proof.
    intros S A P L. rewrite last_new in L. destruct (p_app p =? a) eqn:E; [|exact L]. apply Nat.eqb_eq in E.
    destruct OK as (_ & _ & [Q|Q] & _); [rewrite <- E, Q; exact L|].
    exfalso. destruct S as (b0 & x0 & S). apply (Q _ _ _ _ _ S); congruence.
  Qed.

  Lemma same_new p0 r0 m0 p' reg' ms' :
    sub h' p0 r0 m0 -> sub h' p' reg' ms' ->
    p_app p' = p_app p0 -> p_ctr p' = p_ctr p0 -> p_pid p' = p_pid p0 -> p' = p0 /\ reg' = r0 /\ ms' = m0.
  Proof.
    intros A B E1 E2 E3. apply sub_cons_inv in A, B. destruct OK as (_ & _ & _ & Q).
    destruct A as [A|(b1 & A)]; destruct B as [B|(b2 & B)].
    - exact (i_same _ _ I _ _ _ _ _ _ A B E1 E2 E3).
    - injection B as <- <- <- _. destruct A as (b0 & x0 & A).
      destruct (Q _ _ _ _ _ A) as (-> & -> & ->); auto.
    - injection A as <- <- <- _. destruct B as (b0 & x0 & B). exact (Q _ _ _ _ _ B E1 E2 E3).
    - injection A as <- <- <- _. injection B as <- <- <- _. auto.
  Qed.

  Lemma nodup_new p0 r0 m0 : sub h' p0 r0 m0 -> NoDup (map e_m m0).
  Proof.
    intros A. apply sub_cons_inv in A. destruct A as [A|(b1 & A)]; [exact (i_nodup _ _ I _ _ _ A)|].
    injection A as _ _ <- _. apply OK.
  Qed.

  (** Guards keep, resources keep at least what belongs to the application's current process. *)
  Lemma inv_same_guards s' :
    guards s' = guards s ->
    (forall r, In r (res s') -> In r (res s)) ->
    (forall r, In r (res s) -> last_pid h' (r_app r) = Some (r_pid r) -> In r (res s')) ->
    (x = Done -> In (res_of p reg) (res s')) ->
    inv s' h'.
  Proof.
    intros G R RK D. constructor; rewrite ?G.
    - intros g H. destruct (i_org _ _ I g H) as (p0 & r0 & m0 & e & A & B). exists p0, r0, m0, e.
      split; [apply sub_cons, A|exact B].
    - intros g H L. apply RK; [|exact L]. apply (i_live _ _ I g H).
      destruct (i_org _ _ I g H) as (p0 & r0 & m0 & e & A & _ & B).
      apply (current_before _ _ p0 r0 m0 A); [subst g; reflexivity|subst g; reflexivity|exact L].
    - intros r r' A B. exact (i_pid _ _ I r r' (R r A) (R r' B)).
    - exact (i_gpid _ _ I).
    - exact (i_key _ _ I).
    - intros r H. destruct (i_res _ _ I r (R r H)) as (p0 & r0 & m0 & A & B). exists p0, r0, m0.
      split; [apply sub_cons, A|exact B].
    - intros p0 r0 m0 b0 g [H|H] L Hg A1 A2 A3.
      + injection H as <- <- <- <- X. 
        (* contained before: the region entry fixes the guards *)
        destruct (i_res _ _ I _ (R _ (D X))) as (p1 & r1 & m1 & S1 & E1 & C1).
        unfold res_of in E1. injection E1 as Ea Ep Ec Er.
        assert (Q : p1 = p /\ r1 = reg /\ m1 = ms).
        { apply (same_new p reg ms p1 r1 m1); [exists b, x; left; reflexivity|apply sub_cons, S1|congruence|congruence|congruence]. }
        destruct Q as (-> & -> & ->).
        apply in_map_iff in A3. destruct A3 as (e & E2 & E3).
        assert (Z : g = guard_of p reg e) by (apply (i_key _ _ I); [exact Hg|exact (C1 e E3)|symmetry; exact E2|exact A1|exact A2]).
        subst g. reflexivity.
      + refine (i_own _ _ I p0 r0 m0 b0 g H _ Hg A1 A2 A3).
        apply (current_before _ _ p0 r0 m0); [exists b0, Done; exact H|reflexivity|reflexivity|exact L].
    - exact same_new.
    - exact nodup_new.
    - intros p0 r0 m0 A L. apply active_inv in A. destruct A as [(A & _ & _)|((b1 & A) & X)].
      + apply RK; [|exact L]. apply (i_act _ _ I p0 r0 m0 A).
        apply (current_before _ _ p0 r0 m0 (active_sub _ _ _ _ A) eq_refl eq_refl L).
      + injection A as <- <- <- _. exact (D X).
  Qed.

  (** The region is opened and the methods are registered. *)
  Hypothesis NC : contains s (p_app p) (p_ctr p) (p_pid p) = false.

  Lemma not_contained r : In r (res s) -> r_app r = p_app p -> r_pid r = p_pid p -> r_ctr r <> p_ctr p.
  Proof.
    intros H A P C. unfold contains in NC.
    assert (T : existsb (fun e => (r_app e =? p_app p) && (r_pid e =? p_pid p) && (r_ctr e =? p_ctr p)) (res s) = true).
    { apply existsb_exists. exists r. split; [exact H|]. rewrite !andb_true_iff, !Nat.eqb_eq. auto. }
    congruence.
  Qed.

  (** Guards of the subscribing process are live, so none has the subscriber's key. *)
  Lemma own_process g : In g (guards s) -> g_app g = p_app p -> g_pid g = p_pid p ->
    In (mkRes (g_app g) (g_pid g) (g_ctr g) (g_reg g)) (res s).
  Proof.
    intros H A P. apply (i_live _ _ I g H).
    destruct (i_org _ _ I g H) as (p0 & r0 & m0 & e & S0 & _ & E).
    destruct OK as (_ & _ & [Q|Q] & _); [congruence|].
    exfalso. destruct S0 as (b0 & x0 & S0). subst g. cbn in A, P. exact (Q _ _ _ _ _ S0 A P).
  Qed.

  Lemma no_own_key g : In g (guards s) -> g_app g = p_app p -> g_pid g = p_pid p -> g_ctr g <> p_ctr p.
  Proof. intros H A P. exact (not_contained _ (own_process g H A P) A P). Qed.

  Lemma methods_registered : exists gs, subscribe_methods k p reg ms (guards s) = Some gs /\
    forall g, In g gs <-> (exists e, In e ms /\ g = guard_of p reg e)
                          \/ (In g (guards s) /\ ~ (g_app g = p_app p /\ g_pid g <> p_pid p /\ In (g_m g) (map e_m ms))).
  Proof.
    destruct OK as (K & N & _ & _). apply subscribe_methods_ok; [exact K|exact N| |exact (i_gpid _ _ I)].
    intros g H A P C. destruct (no_own_key g H A P C).
  Qed.

  Lemma in_clean r : In r (clean_old_regions (p_app p) (p_pid p) (res s)) <->
    In r (res s) /\ (r_app r = p_app p -> r_pid r = p_pid p).
  Proof.
    unfold clean_old_regions. rewrite filter_In. destruct (Nat.eqb_spec (r_app r) (p_app p)) as [E|E]; cbn.
    - destruct (Nat.eqb_spec (r_pid r) (p_pid p)) as [F|F]; cbn; intuition congruence.
    - intuition congruence.
  Qed.

  Lemma in_insert r : In r (insert (p_app p) (p_ctr p) (p_pid p) reg (clean_old_regions (p_app p) (p_pid p) (res s))) <->
    r = res_of p reg \/ (In r (res s) /\ (r_app r = p_app p -> r_pid r = p_pid p)).
  Proof.
    unfold insert. set (l := clean_old_regions (p_app p) (p_pid p) (res s)).
    assert (M : map (fun e => if r_app e =? p_app p then mkRes (p_app p) (p_pid p) (r_ctr e) (r_reg e) else e) l = l).
    { assert (Z : forall r, In r l -> r_app r = p_app p -> r_pid r = p_pid p) by (intros z H; apply in_clean in H; tauto).
      clear -Z. induction l as [|e t IH]; [reflexivity|]. cbn. rewrite IH by (intros z H; apply Z; right; exact H).
      destruct (Nat.eqb_spec (r_app e) (p_app p)) as [E|E]; [|reflexivity].
      generalize (Z e (or_introl eq_refl) E). destruct e; cbn in *; intros ->; subst; reflexivity. }
    rewrite M.
    assert (E : existsb (fun e => (r_app e =? p_app p) && (r_ctr e =? p_ctr p)) l = false).
    { destruct (existsb _ l) eqn:E; [exfalso|reflexivity]. apply existsb_exists in E. destruct E as (z & Z1 & Z2).
      apply andb_prop in Z2. destruct Z2 as [Z2 Z3]. apply Nat.eqb_eq in Z2, Z3. apply in_clean in Z1.
      destruct Z1 as [Z1 Z4]. exact (not_contained z Z1 Z2 (Z4 Z2) Z3). }
    rewrite E. cbn [In]. unfold l. rewrite in_clean. unfold res_of. intuition congruence.
  Qed.

  Lemma inv_opened gs :
    (forall g, In g gs <-> (exists e, In e ms /\ g = guard_of p reg e)
                          \/ (In g (guards s) /\ ~ (g_app g = p_app p /\ g_pid g <> p_pid p /\ In (g_m g) (map e_m ms)))) ->
    inv (mkSt true (insert (p_app p) (p_ctr p) (p_pid p) reg (clean_old_regions (p_app p) (p_pid p) (res s))) gs) h'.
  Proof.
    intros G. destruct OK as (K & N & C3 & C4).
    assert (Me : sub h' p reg ms) by (exists b, x; left; reflexivity).
    assert (Keep : forall g, In g (guards s) -> g_pid g = p_pid p \/ g_app g <> p_app p -> In g gs).
    { intros g H Z. apply G. right. split; [exact H|]. tauto. }
    constructor; cbn [guards res].
    - intros g H. apply G in H. destruct H as [(e & E1 & E2)|[H _]].
      + exists p, reg, ms, e. auto.
      + destruct (i_org _ _ I g H) as (p0 & r0 & m0 & e & A & B). exists p0, r0, m0, e. split; [apply sub_cons, A|exact B].
    - intros g H L. apply in_insert. apply G in H. destruct H as [(e & E1 & E2)|[H _]]; [left; subst g; reflexivity|].
      right. destruct (i_org _ _ I g H) as (p0 & r0 & m0 & e & A & _ & B).
      assert (L0 : last_pid h (g_app g) = Some (g_pid g)).
      { apply (current_before _ _ p0 r0 m0 A); [subst g; reflexivity|subst g; reflexivity|exact L]. }
      split; [exact (i_live _ _ I g H L0)|]. cbn. intros Z. rewrite last_new, Z, Nat.eqb_refl in L. congruence.
    - intros r r' A B. apply in_insert in A, B. destruct A as [->|[A A']]; destruct B as [->|[B B']]; cbn; intros E.
      + reflexivity.
      + symmetry. apply B'. congruence.
      + apply A'. exact E.
      + exact (i_pid _ _ I r r' A B E).
    - intros g g' A B M E. apply G in A, B.
      assert (Z : forall e g0, In e ms -> In g0 (guards s) ->
                 ~ (g_app g0 = p_app p /\ g_pid g0 <> p_pid p /\ In (g_m g0) (map e_m ms)) ->
                 g_m g0 = e_m e -> g_app g0 = p_app p -> g_pid g0 = p_pid p).
      { intros e g0 X1 X2 X3 X4 X5. destruct (Nat.eq_dec (g_pid g0) (p_pid p)); [assumption|]. exfalso. apply X3.
        split; [exact X5|]. split; [assumption|]. rewrite X4. apply in_map. exact X1. }
      destruct A as [(e & E1 & ->)|[A A']]; destruct B as [(e' & E1' & ->)|[B B']]; cbn in M, E |- *.
      + reflexivity.
      + symmetry. apply (Z e g' E1 B B'); congruence.
      + apply (Z e' g E1' A A'); congruence.
      + exact (i_gpid _ _ I g g' A B M E).
    - intros g g' A B M E F. apply G in A, B.
      assert (Z : forall e g0, In e ms -> In g0 (guards s) ->
                 ~ (g_app g0 = p_app p /\ g_pid g0 <> p_pid p /\ In (g_m g0) (map e_m ms)) ->
                 g_m g0 = e_m e -> g_app g0 = p_app p -> g_ctr g0 = p_ctr p -> False).
      { intros e g0 X1 X2 X3 X4 X5 X6. destruct (Nat.eq_dec (g_pid g0) (p_pid p)) as [Q|Q].
        - exact (no_own_key g0 X2 X5 Q X6).
        - apply X3. split; [exact X5|]. split; [assumption|]. rewrite X4. apply in_map. exact X1. }
      destruct A as [(e & E1 & ->)|[A A']]; destruct B as [(e' & E1' & ->)|[B B']]; cbn in M, E, F.
      + f_equal. clear -N E1 E1' M. induction ms as [|y t IH]; [destruct E1|]. cbn in N. inversion N as [|? ? N1 N2]; subst.
        destruct E1 as [->|E1]; destruct E1' as [->|E1']; [reflexivity| | |exact (IH N2 E1 E1')].
        * exfalso. apply N1. rewrite M. apply in_map. exact E1'.
        * exfalso. apply N1. rewrite <- M. apply in_map. exact E1.
      + exfalso. apply (Z e g' E1 B B'); congruence.
      + exfalso. apply (Z e' g E1' A A'); congruence.
      + exact (i_key _ _ I g g' A B M E F).
    - intros r H. apply in_insert in H. destruct H as [->|[H H']].
      + exists p, reg, ms. split; [exact Me|]. split; [reflexivity|]. intros e E. apply G. left. exists e. auto.
      + destruct (i_res _ _ I r H) as (p0 & r0 & m0 & A & B & C). exists p0, r0, m0.
        split; [apply sub_cons, A|]. split; [exact B|]. intros e E. apply Keep; [exact (C e E)|].
        subst r. cbn in H' |- *. destruct (Nat.eq_dec (p_app p0) (p_app p)); [left; auto|right; assumption].
    - intros p0 r0 m0 b0 g [H|H] L Hg A1 A2 A3.
      + injection H as <- <- <- <- X. apply G in Hg. destruct Hg as [(e & E1 & ->)|[Hg Z]]; [reflexivity|].
        destruct (Nat.eq_dec (g_pid g) (p_pid p)); [assumption|]. exfalso. apply Z. auto.
      + assert (L0 : last_pid h (p_app p0) = Some (p_pid p0)).
        { apply (current_before _ _ p0 r0 m0); [exists b0, Done; exact H|reflexivity|reflexivity|exact L]. }
        apply G in Hg. destruct Hg as [(e & E1 & ->)|[Hg Z]]; [|exact (i_own _ _ I p0 r0 m0 b0 g H L0 Hg A1 A2 A3)].
        cbn in A1. rewrite last_new, <- A1, Nat.eqb_refl in L. cbn. congruence.
    - exact same_new.
    - exact nodup_new.
    - intros p0 r0 m0 A L. apply in_insert. apply active_inv in A. destruct A as [(A & _ & _)|((b1 & A) & X)].
      + right. split.
        * apply (i_act _ _ I p0 r0 m0 A). exact (current_before _ _ p0 r0 m0 (active_sub _ _ _ _ A) eq_refl eq_refl L).
        * cbn. intros Z. rewrite last_new, Z, Nat.eqb_refl in L. congruence.
      + left. injection A as <- <- <- _. reflexivity.
  Qed.
End Subscribing.

Lemma inv_step k s h o s' x :
  inv s h -> coop k h o -> step k s o = (s', x) -> x <> Aborted /\ inv s' ((o, x) :: h).
Proof.
  intros I OK S. assert (S0 := S). destruct o as [| |p reg ms b|a c|a c q m uid pos]; cbn [step] in S.
  - injection S as <- <-. split; [discriminate|]. apply (inv_shrink s h); cbn; auto; discriminate.
  - injection S as <- <-. split; [discriminate|]. apply (inv_shrink s h); cbn; try tauto; try discriminate; congruence.
  - assert (Same : forall c, x = Failed c -> s' = s -> inv s' ((Subscribe p reg ms b, x) :: h)).
    { intros c -> ->. apply (inv_same_guards k s); auto; discriminate. }
    destruct (negb (offered s)); [injection S as <- <-; split; [discriminate|]; eapply Same; reflexivity|].
    destruct (negb (allowed k (p_q p) (p_uid p))); [injection S as <- <-; split; [discriminate|]; eapply Same; reflexivity|].
    destruct (contains s (p_app p) (p_ctr p) (p_pid p)) eqn:C.
    + injection S as <- <-. split; [discriminate|]. apply (inv_same_guards k s); auto. intros _.
      unfold contains in C. apply existsb_exists in C. destruct C as (r & R1 & R2).
      apply andb_prop in R2. destruct R2 as [R2 R4]. apply andb_prop in R2. destruct R2 as [R2 R3].
      apply Nat.eqb_eq in R2, R3, R4.
      destruct (i_res _ _ I r R1) as (p0 & r0 & m0 & (b0 & x0 & A) & B & _). subst r. cbn in R2, R3, R4.
      destruct OK as (_ & _ & _ & Q). destruct (Q _ _ _ _ _ A R2 R4 R3) as (-> & -> & ->). exact R1.
    + destruct b; cbn [negb] in S.
      * destruct (methods_registered k s h p reg ms true I OK C) as (gs & E & G).
        rewrite E in S. injection S as <- <-. split; [discriminate|].
        exact (inv_opened k s h p reg ms true Done I OK C gs G).
      * injection S as <- <-. split; [discriminate|]. apply (inv_same_guards k s); auto; cbn [res].
        -- intros r H. apply in_clean in H. tauto.
        -- intros r H L. apply in_clean. split; [exact H|]. intros Z. rewrite last_new, Z, Nat.eqb_refl in L. congruence.
        -- discriminate.
  - destruct (negb (offered s)); injection S as <- <-; (split; [discriminate|]).
    + apply (inv_shrink s h); auto; discriminate.
    + apply (inv_shrink s h); auto; cbn [res guards]; try discriminate.
      * intros g H. apply filter_In in H. tauto.
      * intros r H. unfold remove in H. apply filter_In in H. tauto.
      * intros g H R. apply filter_In in H. destruct H as [_ H]. unfold remove. apply filter_In. split; [exact R|exact H].
      * intros r g R H E F. unfold remove in R. apply filter_In in R. destruct R as [_ R]. apply filter_In. split; [exact H|].
        rewrite E, F. exact R.
      * intros p reg _ Z R. unfold remove. apply filter_In. split; [exact R|]. cbn.
        destruct (Nat.eqb_spec (p_app p) a); [|reflexivity]. destruct (Nat.eqb_spec (p_ctr p) c); [|reflexivity]. congruence.
  - assert (E := call_step _ _ _ _ _ _ _ _ _ _ S0). subst s'. split.
    + intros ->. destruct (find _ (guards s)) as [g|] eqn:F; [|discriminate].
      apply find_some in F. destruct F as [G K].
      apply andb_prop in K. destruct K as [K K4]. apply andb_prop in K. destruct K as [K K3].
      apply andb_prop in K. destruct K as [K1 K2]. apply Nat.eqb_eq in K1, K2, K3.
      destruct OK as (p & reg & ms & b & e & A & -> & -> & -> & -> & E1 & -> & E2 & L).
      assert (Gp : g_pid g = p_pid p).
      { apply (i_own _ _ I p reg ms b g A L G K2 K3). rewrite K1. apply in_map. exact E1. }
      assert (Gl : In (mkRes (g_app g) (g_pid g) (g_ctr g) (g_reg g)) (res s)) by (apply (i_live _ _ I g G); congruence).
      destruct (i_res _ _ I _ Gl) as (p0 & r0 & m0 & A0 & B0 & C0). injection B0 as Ba Bp Bc Br.
      destruct (i_same _ _ I p reg ms p0 r0 m0) as (-> & -> & ->);
        [exists b, Done; exact A|exact A0|congruence|congruence|congruence|].
      assert (Z : g = guard_of p reg e) by (apply (i_key _ _ I); [exact G|exact (C0 e E1)|exact K1|exact K2|exact K3]).
      subst g. cbn [g_uid g_data g_len g_reg guard_of] in S. rewrite Nat.eqb_refl in S. cbn [negb] in S.
      destruct (e_data e); cbn [andb] in S; [|discriminate].
      rewrite (proj2 (Nat.ltb_lt _ _) (E2 eq_refl)) in S. cbn [negb] in S.
      destruct (existsb _ (res s)) in S; discriminate.
    + apply (inv_shrink s h); auto; discriminate.
Qed.

Lemma inv_init : inv init [].
Proof.
  constructor; cbn; intros; try tauto;
    repeat match goal with
           | H : sub [] _ _ _ |- _ => destruct H as (? & ? & [])
           | H : active [] _ _ _ |- _ => destruct H as (h2 & ? & ? & E & _); destruct h2; discriminate
           | H : False |- _ => destruct H
           end.
Qed.

Lemma inv_reach k s h : reach k (coop k) s h -> inv s h.
Proof. induction 1 as [|s h o s' x _ I OK S]; [exact inv_init|]. exact (proj2 (inv_step k s h o s' x I OK S)). Qed.

(** What a call of a subscribed proxy finds. *)
Lemma call_guard k s h p reg ms b e g :
  reach k (coop k) s h -> In (Subscribe p reg ms b, Done) h -> last_pid h (p_app p) = Some (p_pid p) ->
  In e ms -> In g (guards s) -> g_m g = e_m e -> g_app g = p_app p -> g_ctr g = p_ctr p ->
  g = guard_of p reg e /\ In (res_of p reg) (res s).
Proof.
  intros R A L E G K1 K2 K3. assert (I := inv_reach k s h R).
  assert (Gp : g_pid g = p_pid p).
  { apply (i_own _ _ I p reg ms b g A L G K2 K3). rewrite K1. apply in_map. exact E. }
  assert (Gl : In (mkRes (g_app g) (g_pid g) (g_ctr g) (g_reg g)) (res s)) by (apply (i_live _ _ I g G); congruence).
  destruct (i_res _ _ I _ Gl) as (p0 & r0 & m0 & A0 & B0 & C0). injection B0 as Ba Bp Bc Br.
  destruct (i_same _ _ I p reg ms p0 r0 m0) as (-> & -> & ->);
    [exists b, Done; exact A|exact A0|congruence|congruence|congruence|].
  split.
  - apply (i_key _ _ I); [exact G|exact (C0 e E)|exact K1|exact K2|exact K3].
  - rewrite K2, Gp, K3, Br in Gl. exact Gl.
Qed.

(** Well-behaved consumers never terminate the provider and never make a handler touch memory that
    is no longer mapped. *)
Theorem C74_no_abort_partial k s h o s' x :
  reach k (coop k) s h -> coop k h o -> step k s o = (s', x) -> x <> Aborted /\ x <> Dangling.
Proof.
  intros R OK S. split; [exact (proj1 (inv_step k s h o s' x (inv_reach k s h R) OK S))|]. intros ->.
  destruct o as [| |p reg ms b|a c|a c q m uid pos]; cbn [step] in S; try discriminate.
  - destruct (negb (offered s)); [discriminate|]. destruct (negb (allowed k (p_q p) (p_uid p))); [discriminate|].
    destruct (contains s (p_app p) (p_ctr p) (p_pid p)); [discriminate|]. destruct (negb b); [discriminate|].
    destruct (subscribe_methods k p reg ms (guards s)); discriminate.
  - destruct (negb (offered s)); discriminate.
  - destruct (find _ (guards s)) as [g|] eqn:F; [|discriminate]. apply find_some in F. destruct F as [G K].
    apply andb_prop in K. destruct K as [K K4]. apply andb_prop in K. destruct K as [K K3].
    apply andb_prop in K. destruct K as [K1 K2]. apply Nat.eqb_eq in K1, K2, K3.
    destruct OK as (p & reg & ms & b & e & A & -> & -> & -> & -> & E1 & -> & E2 & L).
    destruct (call_guard k s h p reg ms b e g R A L E1 G K1 K2 K3) as [-> M].
    cbn [g_uid g_data g_len g_reg guard_of] in S. rewrite Nat.eqb_refl in S. cbn [negb] in S.
    destruct (e_data e && negb (pos <? e_len e)); [discriminate|].
    assert (X : existsb (fun r => r_reg r =? reg) (res s) = true).
    { apply existsb_exists. exists (res_of p reg). split; [exact M|]. cbn. apply Nat.eqb_refl. }
    rewrite X in S. cbn [negb] in S. rewrite andb_false_r in S. discriminate.
Qed.

(** While a proxy is subscribed, its calls run the handler on its own region, at the position asked. *)
Theorem C73_call_runs_partial k s h p reg ms e pos :
  reach k (coop k) s h -> active h p reg ms -> last_pid h (p_app p) = Some (p_pid p) ->
  In e ms -> (e_data e = true -> pos < e_len e) ->
  snd (step k s (Call (p_app p) (p_ctr p) (p_q p) (e_m e) (p_uid p) pos)) = Ran reg pos.
Proof.
  intros R A L E P. assert (I := inv_reach k s h R).
  assert (M := i_act _ _ I p reg ms A L).
  assert (D : exists b, In (Subscribe p reg ms b, Done) h).
  { destruct A as (h2 & h1 & b & -> & _). exists b. apply in_or_app. right. left. reflexivity. }
  destruct D as (b & D).
  assert (G : In (guard_of p reg e) (guards s)).
  { destruct (i_res _ _ I _ M) as (p0 & r0 & m0 & A0 & B0 & C0). injection B0 as Ba Bp Bc Br.
    destruct (i_same _ _ I p reg ms p0 r0 m0) as (-> & -> & ->);
      [exists b, Done; exact D|exact A0|congruence|congruence|congruence|]. exact (C0 e E). }
  cbn [step]. destruct (find _ (guards s)) as [g|] eqn:F.
  - apply find_some in F. destruct F as [G' K].
    apply andb_prop in K. destruct K as [K K4]. apply andb_prop in K. destruct K as [K K3].
    apply andb_prop in K. destruct K as [K1 K2]. apply Nat.eqb_eq in K1, K2, K3.
    destruct (call_guard k s h p reg ms b e g R D L E G' K1 K2 K3) as [-> _].
    cbn [g_uid g_data g_len g_reg guard_of]. rewrite Nat.eqb_refl. cbn [negb].
    assert (X : existsb (fun r => r_reg r =? reg) (res s) = true).
    { apply existsb_exists. exists (res_of p reg). split; [exact M|]. cbn. apply Nat.eqb_refl. }
    rewrite X. cbn [negb]. rewrite andb_false_r.
    destruct (e_data e); cbn [andb]; [|reflexivity].
    destruct (Nat.ltb_spec pos (e_len e)); [reflexivity|]. generalize (P eq_refl). lia.
  - exfalso. generalize (find_none _ _ F _ G). cbn. rewrite !Nat.eqb_refl, Bool.eqb_reflx. discriminate.
Qed.

(** Without a lasting subscription of the named proxy nothing is run, whatever consumers do. *)
Theorem C73_not_subscribed k s h a c q m uid pos :
  reach k anything s h -> (forall p reg ms, active h p reg ms -> p_app p = a -> p_ctr p <> c) ->
  snd (step k s (Call a c q m uid pos)) = Failed 5. (* MethodErrc::kNotSubscribed *)
Proof.
  intros R H. cbn [step]. destruct (find _ (guards s)) as [g|] eqn:F; [exfalso|reflexivity].
  apply find_some in F. destruct F as [G K].
  apply andb_prop in K. destruct K as [K _]. apply andb_prop in K. destruct K as [K K3].
  apply andb_prop in K. destruct K as [_ K2]. apply Nat.eqb_eq in K2, K3.
  destruct (guards_active k anything s h g R G) as (p & reg & ms & e & A & _ & ->). exact (H p reg ms A K2 K3).
Qed.

(** The service is offered: the latest of OfferService and StopOfferService was OfferService. *)
Fixpoint offering (h : hist) : bool :=
  match h with
  | [] => false
  | (Offer, _) :: _ => true
  | (StopOffer, _) :: _ => false
  | _ :: r => offering r
  end.

Lemma offered_offering k ok s h : reach k ok s h -> offered s = offering h.
Proof.
  induction 1 as [|s h o s' x R IH OK S]; [reflexivity|].
  destruct o as [| |p reg ms b|a c|a c q m uid pos]; cbn [step] in S; cbn [offering].
  - injection S as <- _. reflexivity.
  - injection S as <- _. reflexivity.
  - rewrite <- IH. destruct (offered s) eqn:O; cbn [negb] in S; [|injection S as <- _; exact O].
    destruct (negb (allowed _ _ _)); [injection S as <- _; exact O|].
    destruct (contains _ _ _ _); [injection S as <- _; exact O|]. destruct (negb b); [injection S as <- _; reflexivity|].
    destruct (subscribe_methods _ _ _ _ _); injection S as <- _; [reflexivity|exact O].
  - rewrite <- IH. destruct (offered s) eqn:O; cbn [negb] in S; injection S as <- _; [reflexivity|exact O].
  - rewrite <- IH. destruct (find _ _) as [g|]; [|injection S as <- _; reflexivity].
    repeat match type of S with (if ?b then _ else _) = _ => destruct b end; injection S as <- _; reflexivity.
Qed.

Lemma not_offered_no_guards k ok s h : reach k ok s h -> offered s = false -> guards s = [].
Proof.
  induction 1 as [|s h o s' x R IH OK S]; [reflexivity|]. intros O.
  destruct o as [| |p reg ms b|a c|a c q m uid pos]; cbn [step] in S.
  - injection S as <- _. discriminate.
  - injection S as <- _. reflexivity.
  - destruct (offered s) eqn:P; cbn [negb] in S; [|injection S as <- _; exact (IH eq_refl)].
    destruct (negb (allowed _ _ _)); [injection S as <- _; congruence|].
    destruct (contains _ _ _ _); [injection S as <- _; congruence|]. destruct (negb b); [injection S as <- _; discriminate|].
    destruct (subscribe_methods _ _ _ _ _); injection S as <- _; [discriminate|congruence].
  - destruct (offered s) eqn:P; cbn [negb] in S; injection S as <- _; [discriminate|exact (IH eq_refl)].
  - destruct (find _ _) as [g|]; [|injection S as <- _; exact (IH O)].
    repeat match type of S with (if ?b then _ else _) = _ => destruct b end; injection S as <- _; exact (IH O).
Qed.

(** Before the first OfferService and after StopOfferService no subscription is accepted and no call is run, whatever
    was subscribed before. 6 is MethodErrc::kNotOffered, 5 kNotSubscribed (method_error.h 25-33). *)
Theorem C73_not_offered k s h : reach k anything s h -> offering h = false ->
  (forall p reg ms b, step k s (Subscribe p reg ms b) = (s, Failed 6)) /\
  (forall a c q m uid pos, step k s (Call a c q m uid pos) = (s, Failed 5)).
Proof.
  intros R O. rewrite <- (offered_offering _ _ _ _ R) in O. split; intros; cbn [step]; [rewrite O; reflexivity|].
  rewrite (not_offered_no_guards _ _ _ _ R O). reflexivity.
Qed.

(** A user who may not use the service cannot subscribe (7 is kUnknownProxy), and nothing changes. *)
Theorem C73_not_allowed k s h p reg ms b : reach k anything s h -> offering h = true -> allowed k (p_q p) (p_uid p) = false ->
  step k s (Subscribe p reg ms b) = (s, Failed 7).
Proof.
  intros R O A. rewrite <- (offered_offering _ _ _ _ R) in O. cbn [step]. rewrite O, A. reflexivity.
Qed.

(** A subscription fails with 3 if the consumer's memory cannot be opened (unless the proxy is already subscribed), and
    the calls of this proxy are not run afterwards any more than before. *)
Theorem C73_cannot_open k s h p reg ms : reach k anything s h -> offering h = true -> allowed k (p_q p) (p_uid p) = true ->
  snd (step k s (Subscribe p reg ms false)) = Done \/ snd (step k s (Subscribe p reg ms false)) = Failed 3.
Proof.
  intros R O A. rewrite <- (offered_offering _ _ _ _ R) in O. cbn [step]. rewrite O, A. cbn [negb].
  destruct (contains _ _ _ _); [left|right]; reflexivity.
Qed.

(** A call in the name of another user's subscription is refused with 7. *)
Theorem C73_other_user k s h a c q m uid pos : reach k anything s h ->
  (forall p reg ms, active h p reg ms -> p_app p = a -> p_ctr p = c -> p_uid p <> uid) ->
  snd (step k s (Call a c q m uid pos)) = Failed 5 \/ snd (step k s (Call a c q m uid pos)) = Failed 7.
Proof.
  intros R H. cbn [step]. destruct (find _ (guards s)) as [g|] eqn:F; [right|left; reflexivity].
  apply find_some in F. destruct F as [G K].
  apply andb_prop in K. destruct K as [K _]. apply andb_prop in K. destruct K as [K K3].
  apply andb_prop in K. destruct K as [_ K2]. apply Nat.eqb_eq in K2, K3.
  destruct (guards_active k anything s h g R G) as (p & reg & ms & e & A & _ & ->). cbn in K2, K3.
  assert (N := H p reg ms A K2 K3). cbn [g_uid guard_of]. destruct (Nat.eqb_spec (p_uid p) uid); [contradiction|reflexivity].
Qed.

(** * Runs *)

Lemma final_reach k ops : reach k anything (fst (final k ops)) (snd (final k ops)).
Proof.
  induction ops as [|o r IH]; cbn [final]; [constructor|]. destruct (final k r) as [s h]. cbn [fst snd] in IH.
  destruct (step k s o) as [s' x] eqn:E. cbn [fst snd]. exact (reach_step k anything s h o s' x IH I E).
Qed.

Definition two_methods : cfg := mkCfg (fun m => m <=? 2) (fun _ _ => true).
Definition pA : proxy := mkProxy 7 1 100 1000 false.
Definition pB : proxy := mkProxy 7 2 200 1000 false.
Definition ms12 : list mentry := [mkEntry 1 4 true; mkEntry 2 1 true].

(** The histories below are written newest operation first. *)
Definition calls_run : list op :=
  [Call 7 1 false 1 1000 3; Subscribe pA 50 ms12 true; Offer].

Example C73_example :
  map snd (snd (final two_methods calls_run)) = [Ran 50 3; Done; Done].
Proof. reflexivity. Qed.

Example C73_hypotheses_met :
  reach two_methods (coop two_methods) (fst (final two_methods (tl calls_run))) (snd (final two_methods (tl calls_run)))
  /\ active (snd (final two_methods (tl calls_run))) pA 50 ms12
  /\ last_pid (snd (final two_methods (tl calls_run))) 7 = Some 100
  /\ coop two_methods (snd (final two_methods (tl calls_run))) (Call 7 1 false 1 1000 3).
Proof.
  split; [|split; [|split]].
  - eapply reach_step; [eapply reach_step; [constructor|exact I|reflexivity]| |reflexivity].
    cbn. split; [|split; [|split]].
    + intros e [<-|[<-|[]]]; reflexivity.
    + repeat constructor; cbn; intuition discriminate.
    + right. intros p' reg' ms' b x [H|[]]. discriminate.
    + intros p' reg' ms' b x [H|[]]. discriminate.
  - exists [], [(Offer, Done)], true. split; [reflexivity|]. split; intros x [].
  - reflexivity.
  - cbn. exists pA, 50, ms12, true, (mkEntry 1 4 true). cbn.
    split; [left; reflexivity|]. do 4 (split; [reflexivity|]). split; [left; reflexivity|].
    split; [reflexivity|]. split; [lia|reflexivity].
Qed.

(** Two processes with the same application id: the second one's subscription takes the first one's
    away, though the first has not unsubscribed and its process lives. *)
Theorem C73_shared_application_id_refuted :
  exists s h p reg ms e,
    reach two_methods anything s h /\ active h p reg ms /\ In e ms /\ 0 < e_len e
    /\ snd (step two_methods s (Call (p_app p) (p_ctr p) (p_q p) (e_m e) (p_uid p) 0)) = Failed kNotSubscribed.
Proof.
  set (f := final two_methods [Subscribe pB 60 ms12 true; Subscribe pA 50 ms12 true; Offer]).
  exists (fst f), (snd f), pA, 50, ms12, (mkEntry 1 4 true).
  split; [apply final_reach|]. split; [|split; [left; reflexivity|split; [cbn; lia|reflexivity]]].
  exists [(Subscribe pB 60 ms12 true, Done)], [(Offer, Done)], true. split; [reflexivity|].
  split; intros x [H|[]]; discriminate.
Qed.

(** A process id reused by the restarted consumer: the new process' subscription is acknowledged, but
    its calls run on the memory of the process that died. *)
Definition pA' : proxy := mkProxy 7 1 100 1000 false.

Theorem C73_reused_pid_refuted :
  exists s h reg,
    reach two_methods anything s h /\ active h pA' reg ms12
    /\ snd (step two_methods s (Call 7 1 false 1 1000 0)) = Ran 50 0 /\ reg <> 50.
Proof.
  set (f := final two_methods [Subscribe pA' 51 ms12 true; Subscribe pA 50 ms12 true; Offer]).
  exists (fst f), (snd f), 51. split; [apply final_reach|]. split; [|split; [reflexivity|discriminate]].
  exists [], [(Subscribe pA 50 ms12 true, Done); (Offer, Done)], true. split; [reflexivity|]. split; intros x [].
Qed.

(** What the methods section of a consumer's region says is not checked: an unknown method, the same
    method twice, or a position outside the queue terminates the provider. *)
Theorem C74_unknown_method_refuted :
  exists s h, reach two_methods anything s h
    /\ snd (step two_methods s (Subscribe pA 50 [mkEntry 9 1 true] true)) = Aborted.
Proof. exists (fst (final two_methods [Offer])), (snd (final two_methods [Offer])). split; [apply final_reach|reflexivity]. Qed.

Theorem C74_same_method_twice_refuted :
  exists s h, reach two_methods anything s h
    /\ snd (step two_methods s (Subscribe pA 50 [mkEntry 1 1 true; mkEntry 1 1 true] true)) = Aborted.
Proof. exists (fst (final two_methods [Offer])), (snd (final two_methods [Offer])). split; [apply final_reach|reflexivity]. Qed.

Theorem C74_queue_position_refuted :
  exists s h, reach two_methods anything s h
    /\ snd (step two_methods s (Call 7 1 false 1 1000 4)) = Aborted.
Proof.
  exists (fst (final two_methods [Subscribe pA 50 ms12 true; Offer])), (snd (final two_methods [Subscribe pA 50 ms12 true; Offer])).
  split; [apply final_reach|reflexivity].
Qed.

(** No consumer misbehaves in what it writes or calls: two processes share an application id, the
    provider cannot open the second one's region, and the first subscribes again. *)
Theorem C74_shared_application_id_refuted :
  exists s h, reach two_methods anything s h /\ snd (step two_methods s (Subscribe pA 50 ms12 true)) = Aborted.
Proof.
  set (f := final two_methods [Subscribe pB 60 ms12 false; Subscribe pA 50 ms12 true; Offer]).
  exists (fst f), (snd f). split; [apply final_reach|reflexivity].
Qed.

(** A restarted consumer that enables fewer methods leaves the old process' handlers registered for the
    others; calling such a method makes the provider read memory it has unmapped. *)
Theorem C74_stale_handler_refuted :
  exists s h, reach two_methods anything s h
    /\ snd (step two_methods s (Call 7 1 false 2 1000 0)) = Dangling.
Proof.
  set (f := final two_methods [Subscribe (mkProxy 7 1 101 1000 false) 51 [mkEntry 1 4 true] true; Subscribe pA 50 ms12 true; Offer]).
  exists (fst f), (snd f). split; [apply final_reach|reflexivity].
Qed.

(** A run of well-behaved consumers: restart with another process id, then a call. *)
Example C74_example :
  map snd (snd (final two_methods
    [Call 7 1 false 2 1000 0; Unsubscribe 7 1; Call 7 1 false 2 1000 0; Subscribe (mkProxy 7 1 101 1000 false) 51 ms12 true;
     Subscribe pA 50 ms12 true; Offer]))
  = [Failed kNotSubscribed; Done; Ran 51 0; Done; Done; Done].
Proof. reflexivity. Qed.

Print Assumptions C73_only_for_subscribers.
Print Assumptions C73_call_runs_partial.
Print Assumptions C73_not_subscribed.
Print Assumptions C73_shared_application_id_refuted.
Print Assumptions C73_reused_pid_refuted.
Print Assumptions C74_no_abort_partial.
Print Assumptions C74_unknown_method_refuted.
Print Assumptions C74_same_method_twice_refuted.
Print Assumptions C74_queue_position_refuted.
Print Assumptions C74_shared_application_id_refuted.
Print Assumptions C74_stale_handler_refuted.
Print Assumptions C73_not_offered.
Print Assumptions C73_other_user.
