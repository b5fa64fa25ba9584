(** Locks and stacks of the service discovery front end. *)
From Verif Require Import Base FrontModel FrontSpec.

Lemma mem_In h l : mem h l = true <-> In h l.
Proof.
  unfold mem. rewrite existsb_exists. split.
  - intros (x & I & E). apply Nat.eqb_eq in E. now subst.
  - intros I. exists h. split; auto. apply Nat.eqb_refl.
Qed.
Lemma mem_nIn h l : mem h l = false <-> ~ In h l.
Proof. rewrite <- mem_In. destruct (mem h l); split; congruence. Qed.
Lemma del_In h x l : In x (del h l) <-> In x l /\ x <> h.
Proof.
  unfold del. rewrite filter_In, negb_true_iff, Nat.eqb_neq. split; intros [A B]; split; auto.
Qed.
Lemma upd_same {A} (f : nat -> A) k v : upd f k v k = v.
Proof. unfold upd. now rewrite Nat.eqb_refl. Qed.
Lemma upd_other {A} (f : nat -> A) k v x : x <> k -> upd f k v x = f x.
Proof. unfold upd. intros H. apply Nat.eqb_neq in H. now rewrite H. Qed.

Definition cnt (p : frame -> bool) (l : list frame) : nat := length (filter p l).
Lemma cnt_cons p f l : cnt p (f :: l) = (if p f then 1 else 0) + cnt p l.
Proof. unfold cnt. cbn. destruct (p f); reflexivity. Qed.
Lemma cnt_pos p l : 0 < cnt p l <-> exists f, In f l /\ p f = true.
Proof.
  induction l as [|g l IH]; [split; [cbn; lia|intros (f & [] & _)]|]. rewrite cnt_cons. split.
  - destruct (p g) eqn:E; [exists g; split; cbn; auto|]. intros H. destruct (proj1 IH H) as (f & I & P). exists f. split; cbn; auto.
  - intros (f & [->|I] & P); [rewrite P; lia|]. pose proof (proj2 IH (ex_intro _ f (conj I P))). lia.
Qed.

Definition hC (f : frame) : bool := match f with FStart3 _ _ | FStop3 _ _ _ => true | _ => false end.
Definition hW (f : frame) : bool := match f with FStart6 _ _ | FStop6 _ _ | FEv => true | _ => false end.
Definition held (m : option (nat * nat)) (t : nat) : nat :=
  match m with Some (o, n) => if Nat.eqb o t then n else 0 | None => 0 end.
Definition pos (m : option (nat * nat)) : Prop := match m with Some (_, n) => 0 < n | None => True end.

Lemma lock_held m t m' : lock m t = Some m' -> (forall x, held m' x = if Nat.eqb x t then S (held m t) else held m x) /\ pos m' /\
  exists n, m' = Some (t, S n).
Proof.
  unfold lock. destruct m as [[o n]|].
  - destruct (Nat.eqb_spec o t) as [->|N]; [|discriminate]. intros H. injection H as <-. split; [|split; [cbn; lia|eauto]].
    intros x. cbn. rewrite Nat.eqb_refl, (Nat.eqb_sym t x). destruct (Nat.eqb_spec x t); auto.
  - intros H. injection H as <-. split; [|split; [cbn; lia|eauto]]. intros x. cbn. rewrite (Nat.eqb_sym t x). destruct (x =? t); auto.
Qed.
Lemma unlock_held m t m' : unlock m t = Some m' -> (forall x, held m' x = if Nat.eqb x t then held m t - 1 else held m x) /\ pos m' /\
  exists n, m = Some (t, S n) /\ m' = match n with 0 => None | _ => Some (t, n) end.
Proof.
  unfold unlock. destruct m as [[o [|n]]|]; try discriminate. destruct (Nat.eqb_spec o t) as [->|N]; [|discriminate]. intros H. injection H as <-.
  split; [|split; [destruct n; cbn; lia|exists n; auto]].
  intros x. cbn. rewrite Nat.eqb_refl, (Nat.eqb_sym t x). destruct n as [|n]; cbn; [destruct (x =? t); auto|].
  rewrite (Nat.eqb_sym t x). destruct (x =? t); lia.
Qed.

Fixpoint wf (l : list frame) : Prop :=
  match l with
  | [] => False
  | f :: r =>
      match f with
      | FUser | FLoop | FEv => r = []
      | FHandler h => (match r with FStart6 h' true :: _ => h' = h | FEv :: _ => True | _ => False end) /\ wf r
      | FDtor h => (match r with FStop3 h' _ _ :: _ => h' = h
                    | FStart6 _ _ :: _ | FEv :: _ => True | _ => False end) /\ wf r
      | _ => (match r with g :: _ => user g = true | [] => False end) /\ wf r
      end
  end.
(** Every step, spelled out: the new state and what made it possible. *)
Inductive tr (s : st) (t : nat) : st -> Prop :=
| t_start f r b : stk s t = f :: r -> user f = true -> tr s t (enter_start s t b (f :: r))
| t_stop f r h : stk s t = f :: r -> user f = true -> In h (known s) -> tr s t (enter_stop s t h (f :: r))
| t_drop h r : stk s t = FHandler h :: r -> tr s t (drop s t h r)
| t_dtor h r : stk s t = FDtor h :: r -> tr s t (set_stk s t r)
| t_s1 h b r m : stk s t = FStart1 h b :: r -> lock (mc s) t = Some m -> tr s t (store (set_mc s m) t h b r)
| t_s3 h r m : stk s t = FStart3 h true :: r -> unlock (mc s) t = Some m -> tr s t (set_stk (set_mc s m) t (FStart4 h :: r))
| t_s3n h r m : stk s t = FStart3 h false :: r -> unlock (mc s) t = Some m -> tr s t (returned (set_mc s m) t h r)
| t_s4 h ok fo r m : stk s t = FStart4 h :: r -> lock (mw s) t = Some m -> tr s t (register (set_mw s m) t h ok fo r)
| t_s6 h r m : stk s t = FStart6 h true :: r -> unlock (mw s) t = Some m -> tr s t (returned (set_mw s m) t h r)
| t_s6n h r m : stk s t = FStart6 h false :: r -> unlock (mw s) t = Some m -> tr s t (set_stk (set_mw s m) t (FStop1 h true :: r))
| t_p1 h i r m : stk s t = FStop1 h i :: r -> lock (mc s) t = Some m -> tr s t (erase (set_mc s m) t h i r)
| t_p3 h i r m : stk s t = FStop3 h i true :: r -> unlock (mc s) t = Some m -> tr s t (set_stk (set_mc s m) t (FStop4 h i :: r))
| t_p3n h i r m : stk s t = FStop3 h i false :: r -> unlock (mc s) t = Some m -> tr s t (stop_returned (set_mc s m) t h i r)
| t_p4 h i r m : stk s t = FStop4 h i :: r -> lock (mw s) t = Some m -> tr s t (obsolete (set_mw s m) t h i r)
| t_p6 h i r m : stk s t = FStop6 h i :: r -> unlock (mw s) t = Some m -> tr s t (stop_returned (set_mw s m) t h i r)
| t_loop r m : stk s t = FLoop :: r -> lock (mw s) t = Some m -> tr s t (transfer (set_mw s m) t r)
| t_ev r m : stk s t = FEv :: r -> unlock (mw s) t = Some m -> tr s t (set_stk (set_mw s m) t (FLoop :: r))
| t_call h r : stk s t = FEv :: r -> In h (regs s) -> ~ In h (obs s) -> tr s t (invoke s t h (FEv :: r)).

Lemma step_tr s t a s' : step s t a = Some s' -> tr s t s'.
Proof.
  unfold step. destruct (stk s t) as [|f r] eqn:E; [discriminate|].
  assert (L : forall a, match a with AStart _ | AStop _ => False | _ => True end -> lib_step s t f r a = Some s' -> tr s t s').
  { intros b _ H. destruct f; destruct b; try discriminate; cbn in H;
      repeat match type of H with
      | option_map _ ?x = Some _ => let m := fresh "m" in destruct x as [m|] eqn:?; [|discriminate]; cbn in H
      | (if ?b then _ else None) = Some _ => destruct b eqn:?; [|discriminate]
      end; injection H as <-;
      repeat match goal with
      | x : bool |- tr _ _ (if ?x then _ else _) => destruct x
      end; try (econstructor; eassumption).
    apply andb_prop in Heqb as [A B]. apply negb_true_iff in B. apply t_call; auto; [now apply mem_In|now apply mem_nIn]. }
  destruct a; try (apply L; exact Logic.I).
  - destruct (user f) eqn:U; [|discriminate]. intros H. injection H as <-. econstructor; eauto.
  - destruct (user f) eqn:U; [|discriminate]. destruct (mem h (known s)) eqn:K; [|discriminate]. intros H. injection H as <-.
    econstructor; eauto. now apply mem_In.
Qed.

Record inv1 (s : st) : Prop := {
  i_c : forall t, cnt hC (stk s t) = held (mc s) t;
  i_w : forall t, cnt hW (stk s t) = held (mw s) t;
  i_cp : pos (mc s);
  i_wp : pos (mw s);
  i_wf : forall t, wf (stk s t)
}.

Lemma register_cases s t h ok fo r :
  exists fs, stk (register s t h ok fo r) = upd (stk s) t fs /\ mc (register s t h ok fo r) = mc s /\ mw (register s t h ok fo r) = mw s /\
    unres (register s t h ok fo r) = unres s /\
    (fs = FStart6 h ok :: r \/ (ok = true /\ fs = FHandler h :: FStart6 h true :: r)).
Proof.
  unfold register, invoke. destruct ok; [destruct fo|]; cbn; [destruct (_ || _)| |]; cbn; eexists; repeat (split; [reflexivity|]); auto.
Qed.
Lemma invoke_cases s t h r :
  exists fs, stk (invoke s t h r) = upd (stk s) t fs /\ mc (invoke s t h r) = mc s /\ mw (invoke s t h r) = mw s /\
    unres (invoke s t h r) = unres s /\ (fs = r \/ fs = FHandler h :: r).
Proof. unfold invoke. destruct (_ || _); cbn; eexists; repeat (split; [reflexivity|]); auto. Qed.

Lemma inv1_init : inv1 init.
Proof. constructor; cbn; auto; intros [|t]; reflexivity. Qed.

Lemma cnt_upd p s fs t m (H : forall x, cnt p (s x) = held m x) m' :
  (forall x, held m' x = if Nat.eqb x t then cnt p fs else held m x) -> forall x, cnt p (upd s t fs x) = held m' x.
Proof. intros A x. rewrite A. unfold upd. destruct (x =? t); auto. Qed.

Lemma inv1_tr s t s' : inv1 s -> tr s t s' -> inv1 s'.
Proof.
  intros [C W CP WP F] T.
  assert (K : forall fs mc' mw', pos mc' -> pos mw' ->
    (forall x, held mc' x = if Nat.eqb x t then cnt hC fs else held (mc s) x) ->
    (forall x, held mw' x = if Nat.eqb x t then cnt hW fs else held (mw s) x) -> wf fs ->
    (stk s' = upd (stk s) t fs) -> mc s' = mc' -> mw s' = mw' -> inv1 s').
  { intros fs mc' mw' P1 P2 H1 H2 WF E1 E2 E3. constructor; rewrite ?E1, ?E2, ?E3; auto.
    - now apply cnt_upd with (m := mc s).
    - now apply cnt_upd with (m := mw s).
    - intros x. unfold upd. destruct (x =? t); auto. }
  assert (SC : forall x, held (mc s) x = if x =? t then cnt hC (stk s t) else held (mc s) x)
    by (intros x; destruct (Nat.eqb_spec x t) as [->|]; auto).
  assert (SW : forall x, held (mw s) x = if x =? t then cnt hW (stk s t) else held (mw s) x)
    by (intros x; destruct (Nat.eqb_spec x t) as [->|]; auto).
  pose proof (C t) as Ct. pose proof (W t) as Wt. pose proof (F t) as Ft.
  destruct T as [f r b E U|f r h E U I|h r E|h r E|h b r m E L|h r m E L|h r m E L|h ok fo r m E L|h r m E L|h r m E L|h i r m E L|h i r m E L|h i r m E L|h i r m E L|h i r m E L|r m E L|r m E L|h r E I NI];
    rewrite E in *; rewrite ?cnt_cons in *; cbn [hC hW] in *;
    try (apply lock_held in L as (LH & LP & _)); try (apply unlock_held in L as (LH & LP & _));
    try (destruct (register_cases (set_mw s m) t h ok fo r) as (fs & Q1 & Q2 & Q3 & Q4 & Q5));
    try (destruct (invoke_cases s t h (FEv :: r)) as (fs & Q1 & Q2 & Q3 & Q4 & Q5));
    (eapply K; [| | | | | try exact Q1; try (unfold drop, erase; cbn; reflexivity); try reflexivity | try exact Q2; reflexivity | try exact Q3; reflexivity]; cbn -[cnt]; auto).
  all: try (intros x; specialize (SC x); specialize (SW x); try specialize (LH x); rewrite ?LH;
    destruct (x =? t); auto; repeat (match goal with |- context [if ?c then _ else _] => destruct c end); rewrite ?cnt_cons; cbn -[cnt]; lia).
  all: try (cbn in Ft; tauto).
  - cbn in Ft. destruct Ft as [A B]. destruct (_ && _); auto. cbn. split; auto. destruct r as [|[] r]; auto; try contradiction.
  - intros x. specialize (SC x). destruct (x =? t); auto. destruct Q5 as [->|[-> ->]]; rewrite ?cnt_cons; cbn -[cnt]; lia.
  - intros x. rewrite LH. destruct (x =? t); auto. destruct Q5 as [->|[-> ->]]; rewrite ?cnt_cons; cbn -[cnt]; lia.
  - cbn in Ft. destruct Ft as [A B]. destruct Q5 as [->|[-> ->]]; cbn; auto.
  - cbn in Ft. destruct Ft as [A B]. destruct (existsb _ _ && (refs s h =? 0)); cbn; auto.
  - intros x. specialize (SC x). destruct (x =? t); auto. destruct Q5 as [->| ->]; rewrite ?cnt_cons; cbn -[cnt]; lia.
  - intros x. specialize (SW x). destruct (x =? t); auto. destruct Q5 as [->| ->]; rewrite ?cnt_cons; cbn -[cnt]; lia.
  - destruct Q5 as [->| ->]; cbn; auto.
Qed.

(** Handlers run under worker_mutex_, and each running call owns one reference. *)
Definition isH (h : nat) (f : frame) : bool := match f with FHandler h' => Nat.eqb h h' | _ => false end.

Lemma noW_noH h l : wf l -> cnt hW l = 0 -> cnt (isH h) l = 0.
Proof.
  induction l as [|f r IH]; [reflexivity|]. rewrite !cnt_cons. intros WF Z.
  assert (P : hW f = false) by (destruct (hW f); [lia|auto]). rewrite P in Z. cbn in WF.
  destruct f; cbn [isH]; try (apply IH; tauto); try (subst r; reflexivity).
  exfalso. destruct WF as [A _]. destruct r as [|[] r]; try contradiction; rewrite cnt_cons in Z; cbn in Z; lia.
Qed.

Definition inv2 (s : st) : Prop :=
  forall h, refs s h = match mw s with Some (o, _) => cnt (isH h) (stk s o) | None => 0 end.

Lemma not_owner s t h : inv1 s -> (forall n, mw s <> Some (t, n)) -> cnt (isH h) (stk s t) = 0.
Proof.
  intros I N. apply noW_noH; [apply i_wf; auto|]. rewrite i_w; auto. unfold held. destruct (mw s) as [[o n]|]; auto.
  destruct (Nat.eqb_spec o t) as [->|]; auto. now destruct (N n).
Qed.

Lemma same_calls s t s' fs : inv1 s -> inv1 s' -> inv2 s -> stk s' = upd (stk s) t fs -> refs s' = refs s ->
  (forall h, cnt (isH h) fs = cnt (isH h) (stk s t)) -> inv2 s'.
Proof.
  intros I I' R E ER EC h. rewrite ER, (R h).
  assert (EA : forall x, cnt (isH h) (stk s' x) = cnt (isH h) (stk s x)).
  { intros x. rewrite E. unfold upd. destruct (Nat.eqb_spec x t) as [->|]; auto. }
  destruct (mw s) as [[o n]|] eqn:M, (mw s') as [[o' n']|] eqn:M'; auto.
  - rewrite EA. destruct (Nat.eq_dec o o') as [->|N]; auto.
    rewrite (not_owner s o' h I ltac:(congruence)), <- EA. apply not_owner; auto. congruence.
  - rewrite <- EA. apply not_owner; auto. congruence.
  - rewrite EA. symmetry. apply not_owner; auto. congruence.
Qed.

Lemma holds_owner s t : inv1 s -> 0 < cnt hW (stk s t) -> exists n, mw s = Some (t, n).
Proof.
  intros I. rewrite i_w; auto. unfold held. destruct (mw s) as [[o n]|]; [|lia]. destruct (Nat.eqb_spec o t) as [->|]; [eauto|lia].
Qed.
Lemma holds_ownerC s t : inv1 s -> 0 < cnt hC (stk s t) -> exists n, mc s = Some (t, n).
Proof.
  intros I. rewrite i_c; auto. unfold held. destruct (mc s) as [[o n]|]; [|lia]. destruct (Nat.eqb_spec o t) as [->|]; [eauto|lia].
Qed.
Lemma handler_holds s t h : inv1 s -> In (FHandler h) (stk s t) -> exists n, mw s = Some (t, n).
Proof.
  intros I H. apply holds_owner; auto. destruct (cnt hW (stk s t)) eqn:Z; [|lia].
  pose proof (noW_noH h _ (i_wf _ I t) Z) as Q. assert (0 < cnt (isH h) (stk s t)); [|lia].
  apply cnt_pos. exists (FHandler h). split; auto. cbn. apply Nat.eqb_refl.
Qed.
Lemma refs_handlers s t h : inv1 s -> inv2 s -> 0 < cnt hW (stk s t) -> refs s h = cnt (isH h) (stk s t).
Proof. intros I R H. destruct (holds_owner _ _ I H) as (n & E). rewrite (R h), E. reflexivity. Qed.

Lemma invoke_inv2 s t h below f s1 : inv1 s -> inv1 (invoke s1 t h below) -> inv2 s ->
  refs s1 = refs s -> stk s1 = stk s ->
  (forall x, cnt (isH x) below = cnt (isH x) (stk s t)) -> below = f :: tl below -> hW f = true -> inv2 (invoke s1 t h below).
Proof.
  intros I I' R ER ES EC EB HF. unfold invoke in *. rewrite ER, ES in *. destruct (_ || _) eqn:B.
  - intros x. cbn [refs mw stk]. match type of I' with inv1 ?z => set (s' := z) in * end.
    assert (O : exists n, mw s' = Some (t, n)).
    { apply (handler_holds s' t h I'). cbn. rewrite upd_same. now left. }
    destruct O as (n & O). cbn in O. rewrite O, upd_same, cnt_cons, EC. cbn.
    assert (Q : refs s x = cnt (isH x) (stk s t)).
    { rewrite (R x). destruct (mw s) as [[o k]|] eqn:M.
      - destruct (Nat.eq_dec o t) as [->|N]; auto.
        rewrite (not_owner s t x I ltac:(congruence)).
        pose proof (not_owner s' o x I') as Z. cbn in Z. rewrite upd_other in Z; auto. apply Z. congruence.
      - symmetry. apply not_owner; auto. congruence. }
    unfold upd. destruct (Nat.eqb_spec x h) as [->|]; lia.
  - eapply (same_calls s t (set_stk s1 t below) below); auto. cbn. now rewrite ES.
Qed.

Lemma inv2_tr s t s' : inv1 s -> inv2 s -> tr s t s' -> inv2 s'.
Proof.
  intros I R T. pose proof (inv1_tr _ _ _ I T) as I'. pose proof (i_wf _ I t) as Ft.
  destruct T as [f r b E U|f r h E U K|h r E|h r E|h b r m E L|h r m E L|h r m E L|h ok fo r m E L|h r m E L|h r m E L|h i r m E L|h i r m E L|h i r m E L|h i r m E L|h i r m E L|r m E L|r m E L|h r E K NK];
    try (eapply (same_calls s t); [exact I|exact I'|exact R|unfold erase; cbn; reflexivity|reflexivity|];
      intros x; rewrite E; try (destruct (_ && _)); rewrite ?cnt_cons; cbn -[cnt]; lia).
  - rewrite E in Ft. cbn in Ft. destruct Ft as [A WF].
    assert (W : 0 < cnt hW r) by (destruct r as [|[] r]; try contradiction; rewrite cnt_cons; cbn; lia).
    destruct (holds_owner s t I) as (n & O); [rewrite E, cnt_cons; lia|].
    intros x. unfold drop. cbn [refs mw stk]. rewrite O, upd_same.
    assert (Q : cnt (isH x) (if negb (mem h (stored s)) && (refs s h - 1 =? 0) then FDtor h :: r else r) = cnt (isH x) r)
      by (destruct (_ && _); [apply cnt_cons|reflexivity]). rewrite Q.
    pose proof (R h) as Rh. pose proof (R x) as Rx. rewrite O, E, cnt_cons in Rh, Rx. cbn -[cnt] in Rh, Rx. rewrite Nat.eqb_refl in Rh.
    unfold upd. destruct (Nat.eqb_spec x h) as [->|]; lia.
  - unfold register. destruct ok; [destruct fo|].
    + apply (invoke_inv2 s t h (FStart6 h true :: r) (FStart6 h true)); auto.
      intros x. rewrite E, !cnt_cons. cbn. lia.
    + eapply (same_calls s t); [exact I|exact I'|exact R|cbn; reflexivity|reflexivity|]. intros x. rewrite E, !cnt_cons. cbn. lia.
    + eapply (same_calls s t); [exact I|exact I'|exact R|cbn; reflexivity|reflexivity|]. intros x. rewrite E, !cnt_cons. cbn. lia.
  - apply (invoke_inv2 s t h (FEv :: r) FEv); auto. intros x. now rewrite E.
Qed.

(** Every search is started by one call. *)
Definition isS (h : nat) (f : frame) : bool :=
  match f with
  | FStart1 h' _ | FStart3 h' _ | FStart4 h' | FStart6 h' _ | FStop1 h' true | FStop3 h' true _ | FStop4 h' true | FStop6 h' true => Nat.eqb h h'
  | _ => false
  end.
Record inv3 (s : st) : Prop := {
  i_one : forall h t, cnt (isS h) (stk s t) <= 1;
  i_uni : forall h t t', 0 < cnt (isS h) (stk s t) -> 0 < cnt (isS h) (stk s t') -> t = t';
  i_lt : forall h t, 0 < cnt (isS h) (stk s t) -> h < next s
}.

Lemma inv3_le s t s' fs : inv3 s -> stk s' = upd (stk s) t fs -> next s' = next s ->
  (forall h, cnt (isS h) fs <= cnt (isS h) (stk s t)) -> inv3 s'.
Proof.
  intros [A B C] E EN L.
  assert (EA : forall h x, cnt (isS h) (stk s' x) <= cnt (isS h) (stk s x)).
  { intros h x. rewrite E. unfold upd. destruct (Nat.eqb_spec x t) as [->|]; auto. }
  constructor.
  - intros h x. specialize (EA h x). specialize (A h x). lia.
  - intros h x x' P P'. apply (B h); [specialize (EA h x)|specialize (EA h x')]; lia.
  - intros h x P. rewrite EN. apply (C h x). specialize (EA h x). lia.
Qed.

Lemma inv3_tr s t s' : inv3 s -> tr s t s' -> inv3 s'.
Proof.
  intros R T.
  destruct T as [f r b E U|f r h E U K|h r E|h r E|h b r m E L|h r m E L|h r m E L|h ok fo r m E L|h r m E L|h r m E L|h i r m E L|h i r m E L|h i r m E L|h i r m E L|h i r m E L|r m E L|r m E L|h r E K NK];
    try (eapply (inv3_le s t); [exact R|unfold erase; cbn; reflexivity|reflexivity|];
      intros x; rewrite E; try (destruct (_ && _)); try (destruct i); rewrite ?cnt_cons; cbn -[cnt]; try lia).
  - destruct R as [A B C].
    assert (F : forall t, cnt (isS (next s)) (stk s t) = 0).
    { intros x. destruct (cnt _ (stk s x)) eqn:Z; auto. specialize (C (next s) x). lia. }
    assert (EA : forall h x, cnt (isS h) (stk (enter_start s t b (f :: r)) x) = cnt (isS h) (stk s x) + if (Nat.eqb h (next s) && Nat.eqb x t) then 1 else 0).
    { intros h x. cbn -[cnt]. unfold upd. destruct (Nat.eqb_spec x t) as [->|]; [|rewrite andb_false_r; lia].
      rewrite cnt_cons, E. cbn -[cnt]. rewrite andb_true_r. lia. }
    constructor.
    + intros h x. rewrite EA. specialize (A h x). destruct (Nat.eqb_spec h (next s)) as [->|]; [rewrite F|]; cbn; destruct (x =? t); cbn; lia.
    + intros h x x'. rewrite !EA. destruct (Nat.eqb_spec h (next s)) as [->|]; [rewrite !F|]; cbn.
      * destruct (Nat.eqb_spec x t), (Nat.eqb_spec x' t); subst; auto; lia.
      * intros P P'. apply (B h); lia.
    + intros h x. rewrite EA. cbn. destruct (Nat.eqb_spec h (next s)) as [->|]; [lia|]. cbn. intros P.
      assert (h < next s) by (apply (C h x); lia). lia.
  - destruct (register_cases (set_mw s m) t h ok fo r) as (fs & Q1 & Q2 & Q3 & Q4 & Q5).
    eapply (inv3_le s t); [exact R|exact Q1| |].
    + unfold register, invoke. destruct ok; [destruct fo|]; cbn; try destruct (_ || _); reflexivity.
    + intros x. rewrite E. destruct Q5 as [->|[_ ->]]; rewrite ?cnt_cons; cbn -[cnt]; lia.
  - destruct (invoke_cases s t h (FEv :: r)) as (fs & Q1 & Q2 & Q3 & Q4 & Q5).
    eapply (inv3_le s t); [exact R|exact Q1| |].
    + unfold invoke. destruct (_ || _); reflexivity.
    + intros x. rewrite E. destruct Q5 as [->| ->]; rewrite ?cnt_cons; cbn -[cnt]; lia.
Qed.
