(** Invariants for C113. *)
From Verif Require Import PxModel PxSpec.
From Verif Require AllocProps.
Local Open Scope Z_scope.

Lemma find_in id l r : find id l = Some r -> In (id, r) l.
Proof.
  induction l as [|[i r'] l IH]; cbn; [discriminate|]. destruct (Z.eqb_spec i id).
  - intros [= ->]. subst. left. reflexivity.
  - intros H. right. apply IH, H.
Qed.

Lemma find_filter id l r r' : find id l = Some r -> r <> r' -> find id (filter (fun e => negb (Nat.eqb (snd e) r')) l) = Some r.
Proof.
  intros H N. induction l as [|[i q] l IH]; cbn in *; [discriminate|].
  destruct (Z.eqb_spec i id) as [E|E].
  - injection H as ->. destruct (Nat.eqb_spec r r'); [contradiction|]. cbn. rewrite (proj2 (Z.eqb_eq i id) E). reflexivity.
  - destruct (Nat.eqb_spec q r'); cbn; [apply IH, H|]. destruct (Z.eqb_spec i id); [contradiction|]. apply IH, H.
Qed.

Definition ev_ok (s : st) (e : event) : Prop :=
  (e_res e < nobj s)%nat /\ lies_in s (e_res e) (e_proxy e) /\ block_in s (e_res e) e /\ e_addr e mod e_al e = 0.

Record Inv (s : st) : Prop := {
  i_reg : forall id r, In (id, r) (reg s) -> (r < nobj s)%nat /\ live s r = true;
  i_geo : forall r, (r < nobj s)%nat -> osim (objs s r) = false /\ 0 < obase (objs s r) /\ 0 < osize (objs s r) < H63 /\
          obase (objs s r) + osize (objs s r) < W64 /\ 0 <= cntr s r <= osize (objs s r);
  i_thr : forall t, match thr s t with
          | Idle => True
          | PAt p n sz a => 0 <= n * sz < W64 /\ 0 < a /\ exists r, find (word s p) (reg s) = Some r /\ lies_in s r p
          | PUse p n sz a r => 0 <= n * sz < W64 /\ 0 < a /\ lies_in s r p /\ exists id, In (id, r) (reg s)
          end;
  i_log : forall e, In e (log s) -> ev_ok s e;
  i_ub : ub s = false
}.

Lemma inv_kill s : Inv s -> Inv (kill s).
Proof. intros [A B C D E]. constructor; auto. Qed.

Lemma inv_init : Inv init.
Proof. constructor; cbn; auto; try tauto. intros r H. inversion H. Qed.

Lemma inv_map s id base size c s' : Inv s -> map_obj s id base size c false = Some s' ->
  (forall t, ~ calling s t (base + 8)) -> Inv s'.
Proof.
  intros [A B C D E] H NC. unfold map_obj in H. cbn [orb] in H.
  destruct (_ && _ && _ && _ && _ && _) eqn:G; [|discriminate].
  repeat (apply andb_true_iff in G; destruct G as [G ?]). 
  repeat match goal with X : (_ <? _) = true |- _ => apply Z.ltb_lt in X | X : (_ <=? _) = true |- _ => apply Z.leb_le in X end.
  destruct (find id (reg s)) eqn:F; injection H as <-; [apply inv_kill; constructor; auto|].
  assert (FR : forall i r, find i (reg s) = Some r -> find i ((id, nobj s) :: reg s) = Some r).
  { intros i r X. cbn. destruct (Z.eqb_spec id i); [subst; congruence|exact X]. }
  assert (SO : forall r, (r < nobj s)%nat -> updn (objs s) (nobj s) (mkObj id base size false) r = objs s r).
  { intros r X. unfold updn. destruct (Nat.eqb_spec r (nobj s)); [lia|reflexivity]. }
  constructor; cbn [nobj objs live reg word cntr heap thr log dead ub]; auto.
  - intros i r [X|X].
    + injection X as <- <-. split; [lia|]. unfold updn. rewrite Nat.eqb_refl. reflexivity.
    + destruct (A _ _ X) as [X1 X2]. split; [lia|]. unfold updn. destruct (Nat.eqb_spec r (nobj s)); [lia|exact X2].
  - intros r X. unfold updn. destruct (Nat.eqb_spec r (nobj s)).
    + cbn. repeat split; lia.
    + apply B. lia.
  - intros t. specialize (C t). specialize (NC t). unfold calling in NC. destruct (thr s t) as [|p n sz a|p n sz a r]; auto.
    + destruct C as (C1 & C2 & r & C3 & C4). split; [exact C1|]. split; [exact C2|]. exists r. split.
      * unfold updz. destruct (Z.eqb_spec p (base + 8)); [contradiction|]. apply FR, C3.
      * unfold lies_in in *. cbn. rewrite SO; [exact C4|]. apply find_in in C3. apply A in C3. tauto.
    + destruct C as (C1 & C2 & C3 & i & C4). split; [exact C1|]. split; [exact C2|]. split.
      * unfold lies_in in *. cbn. rewrite SO; [exact C3|]. apply A in C4. tauto.
      * exists i. right. exact C4.
  - intros e X. destruct (D _ X) as (X1 & X2 & X3 & X4). unfold ev_ok, lies_in, block_in in *. cbn. rewrite SO by exact X1. repeat split; try tauto; lia.
Qed.

(** Nobody allocates through a proxy in memory that is not mapped: a proxy in use lies in a registered region,
    and a new region is disjoint from it. *)
Lemma fresh_not_calling s id base size c s' : Inv s -> map_obj s id base size c false = Some s' -> forall t, ~ calling s t (base + 8).
Proof.
  intros [A B C D E] H t K. unfold map_obj in H. cbn [orb] in H.
  destruct (_ && _ && _ && _ && _ && _) eqn:G; [|discriminate].
  apply andb_true_iff in G. destruct G as [G RF]. repeat (apply andb_true_iff in G; destruct G as [G ?]).
  repeat match goal with X : (_ <? _) = true |- _ => apply Z.ltb_lt in X | X : (_ <=? _) = true |- _ => apply Z.leb_le in X end.
  unfold range_free in RF. rewrite forallb_forall in RF.
  assert (HH : exists r, (r < nobj s)%nat /\ live s r = true /\ lies_in s r (base + 8)).
  { specialize (C t). unfold calling in K. destruct (thr s t); [contradiction| |]; subst.
    - destruct C as (_ & _ & r & F & L). apply find_in in F. destruct (A _ _ F). eauto.
    - destruct C as (_ & _ & L & i & F). destruct (A _ _ F). eauto. }
  destruct HH as (r & R1 & R2 & R3). specialize (RF r ltac:(apply in_seq; lia)). rewrite R2 in RF. cbn in RF.
  destruct (B r R1) as (S0 & _). unfold start_of, end_of in RF. rewrite S0 in RF. cbn in RF. unfold overlap in RF.
  unfold lies_in in R3. apply negb_true_iff, andb_false_iff in RF.
  destruct RF as [RF|RF]; apply Z.ltb_ge in RF; lia.
Qed.

Lemma inv_call s t p n sz a : Inv s -> apart s (LCall t p n sz a) -> 0 <= n -> 0 < sz -> 0 < a -> Inv (call s t p n sz a).
Proof.
  intros I AP N SZ AL. pose proof I as [A B C D E]. unfold call.
  destruct (Z.leb_spec W64 (n * sz)); [apply inv_kill, I|].
  destruct (find (word s p) (reg s)) as [r|] eqn:F; [|apply inv_kill, I].
  destruct (_ && _) eqn:G; [|apply inv_kill, I].
  apply andb_true_iff in G. destruct G as [G1 G2]. apply Z.leb_le in G1, G2.
  destruct (A _ _ (find_in _ _ _ F)) as [R1 R2]. destruct (B r R1) as (S0 & _). unfold start_of, end_of in *. rewrite S0 in *.
  specialize (AP r R2). constructor; cbn [set_thr nobj objs live reg word cntr heap thr log dead ub]; auto.
  intros t'. unfold updn. destruct (Nat.eqb_spec t' t); [|apply C].
  split; [nia|]. split; [lia|]. exists r. split; [exact F|]. unfold lies_in. cbn. lia.
Qed.

Lemma inv_look s t p n sz a : Inv s -> thr s t = PAt p n sz a -> Inv (look_up s t p n sz a).
Proof.
  intros I H. pose proof I as [A B C D E]. unfold look_up.
  destruct (find (word s p) (reg s)) as [r|] eqn:F; [|apply inv_kill, I].
  constructor; cbn [set_thr nobj objs live reg word cntr heap thr log dead ub]; auto.
  intros t'. unfold updn. destruct (Nat.eqb_spec t' t); [|apply C].
  specialize (C t). rewrite H in C. destruct C as (C1 & C2 & r' & C3 & C4). rewrite C3 in F. injection F as ->.
  split; [exact C1|]. split; [exact C2|]. split; [exact C4|]. exists (word s p). apply find_in, C3.
Qed.

Lemma inv_use s t p n sz a r x s' : Inv s -> thr s t = PUse p n sz a r -> use s t p n sz a r x = Some s' -> Inv s'.
Proof.
  intros I H U. pose proof I as [A B C D E]. unfold use in U.
  pose proof (C t) as Ct. rewrite H in Ct. destruct Ct as (C1 & C2 & C3 & i & C4).
  destruct (A _ _ C4) as [R1 R2]. rewrite R2 in U. cbn [negb] in U. destruct (B r R1) as (S0 & G1 & G2 & G3 & G4). rewrite S0 in U.
  rewrite AllocProps.reserve_spec in U by (unfold AllocProps.is_size; lia).
  pose proof (AllocProps.align_up_spec (obase (objs s r) + cntr s r) a C2) as [M Q].
  set (q := align_up (obase (objs s r) + cntr s r) a) in *.
  destruct (Z.leb_spec (q + n * sz) (obase (objs s r) + osize (objs s r))); injection U as <-; [|apply inv_kill, I].
  constructor; cbn [nobj objs live reg word cntr heap thr log dead ub]; auto.
  - intros r' X. specialize (B r' X). unfold updn. destruct (Nat.eqb_spec r' r); [subst|exact B]. repeat split; try tauto; lia.
  - intros t'. unfold updn. destruct (Nat.eqb_spec t' t); [exact Logic.I|apply C].
  - intros e [<-|X]; [|apply D, X]. unfold ev_ok, block_in, lies_in in *. cbn. repeat split; try tauto; lia.
Qed.

Lemma inv_step s l s' : Inv s -> orderly s l -> step s l = Some s' -> Inv s'.
Proof.
  intros I (CP & KE & NS & AP) H. unfold step in H. destruct (dead s || ub s); [discriminate|].
  pose proof I as [A B C D E].
  destruct l as [id base size c sim|r|r|p v|t p n sz a|t x|t p q].
  - cbn in NS. subst sim. eapply inv_map; eauto. eapply fresh_not_calling; eauto.
  - destruct (_ && _); [|discriminate]. injection H as <-.
    constructor; cbn [nobj objs live reg word cntr heap thr log dead ub]; auto.
    + intros id r' X. apply filter_In in X. apply (A id r'), X.
    + intros t. cbn in KE. specialize (KE t). unfold calling in KE. specialize (C t). destruct (thr s t) as [|p n sz a|p n sz a r']; auto.
      * destruct C as (C1 & C2 & r' & C3 & C4). repeat (split; auto). exists r'. split; [|exact C4].
        apply find_filter; [exact C3|]. intros ->. exact (KE p eq_refl C4).
      * destruct C as (C1 & C2 & C3 & i & C4). repeat (split; auto). exists i. apply filter_In. split; [exact C4|].
        cbn. destruct (Nat.eqb_spec r' r) as [->|]; [|reflexivity]. destruct (KE p eq_refl C3).
  - destruct (_ && negb _) eqn:G; [|discriminate]. injection H as <-. apply andb_true_iff in G. destruct G as [_ G].
    apply negb_true_iff in G.
    constructor; cbn [nobj objs live reg word cntr heap thr log dead ub]; auto.
    intros id r' X. destruct (A _ _ X) as [A1 A2]. split; [exact A1|]. unfold updn. destruct (Nat.eqb_spec r' r); [|exact A2]. subst.
    exfalso. assert (Y : existsb (fun e : Z * nat => Nat.eqb (snd e) r) (reg s) = true)
      by (apply existsb_exists; exists (id, r); split; [exact X|apply Nat.eqb_refl]). congruence.
  - injection H as <-. constructor; cbn [nobj objs live reg word cntr heap thr log dead ub]; auto.
    intros t. cbn in CP. specialize (CP t). unfold calling in CP. specialize (C t). destruct (thr s t) as [|p' n sz a|p' n sz a r']; auto.
    unfold updz. destruct (Z.eqb_spec p' p); [subst; destruct (CP eq_refl)|exact C].
  - destruct (thr s t); try discriminate. destruct (_ && _) eqn:G; [|discriminate]. injection H as <-.
    apply andb_true_iff in G. destruct G as [G G3]. apply andb_true_iff in G. destruct G as [G1 G2].
    apply Z.leb_le in G1. apply Z.ltb_lt in G2, G3. apply inv_call; auto.
  - destruct (thr s t) eqn:T; [discriminate| |].
    + injection H as <-. apply inv_look; auto.
    + eapply inv_use; eauto.
  - destruct (thr s t); try discriminate. injection H as <-. unfold free.
    destruct (find (word s p) (reg s)) as [r|] eqn:F; [|exact I].
    destruct (A _ _ (find_in _ _ _ F)) as [R1 R2]. rewrite R2. cbn [negb]. destruct (B r R1) as (S0 & _). rewrite S0. exact I.
Qed.

Theorem inv_reach s : reach orderly s -> Inv s.
Proof. induction 1; [apply inv_init|eapply inv_step; eauto]. Qed.

(** * In every execution *)
Record Geo (s : st) : Prop := {
  g_live : forall r, live s r = true -> (r < nobj s)%nat;
  g_geo : forall r, (r < nobj s)%nat -> osim (objs s r) = false -> 0 < obase (objs s r) /\ 0 < osize (objs s r) < H63 /\         obase (objs s r) + osize (objs s r) < W64 /\ 0 <= cntr s r <= osize (objs s r);
  g_disj : forall r r' p, live s r = true -> live s r' = true -> osim (objs s r) = false -> osim (objs s r') = false ->
          lies_in s r p -> lies_in s r' p -> r = r';
  g_reg : forall id r, In (id, r) (reg s) -> (r < nobj s)%nat /\ oid (objs s r) = id;
  g_thr : forall t, match thr s t with
          | Idle => True
          | PAt _ n sz a => 0 <= n /\ 0 < sz /\ n * sz < W64 /\ 0 < a
          | PUse _ n sz a _ => 0 <= n /\ 0 < sz /\ n * sz < W64 /\ 0 < a
          end;
  g_log : forall e, In e (log s) -> 0 <= e_n e * e_sz e < W64
}.

Lemma geo_kill s : Geo s -> Geo (kill s).
Proof. intros [A B C D E F]. constructor; auto. Qed.
Lemma geo_ub s : Geo s -> Geo (set_ub s).
Proof. intros [A B C D E F]. constructor; auto. Qed.

Lemma geo_map s id base size c sim s' : Geo s -> map_obj s id base size c sim = Some s' -> Geo s'.
Proof.
  intros I H. pose proof I as [A B C D E F]. unfold map_obj in H.
  match type of H with (if ?g then _ else _) = _ => destruct g eqn:G end; [|discriminate].
  destruct (find id (reg s)) eqn:FI; injection H as <-; [apply geo_kill, I|].
  assert (SO : forall r, (r < nobj s)%nat -> updn (objs s) (nobj s) (mkObj id base size sim) r = objs s r).
  { intros r X. unfold updn. destruct (Nat.eqb_spec r (nobj s)); [lia|reflexivity]. }
  assert (SN : updn (objs s) (nobj s) (mkObj id base size sim) (nobj s) = mkObj id base size sim).
  { unfold updn. rewrite Nat.eqb_refl. reflexivity. }
  assert (LV : forall r, updn (live s) (nobj s) true r = true -> r = nobj s \/ (r < nobj s)%nat /\ live s r = true).
  { intros r. unfold updn. destruct (Nat.eqb_spec r (nobj s)); auto. }
  assert (GG : sim = false -> 0 < base /\ size < H63 /\ base + size < W64 /\ 16 <= c <= size /\
     forall r p, (r < nobj s)%nat -> live s r = true -> osim (objs s r) = false -> base <= p < base + size -> ~ lies_in s r p).
  { intros ->. cbn [orb] in G. repeat (apply andb_true_iff in G; destruct G as [G ?]).
    repeat match goal with X : (_ <? _) = true |- _ => apply Z.ltb_lt in X | X : (_ <=? _) = true |- _ => apply Z.leb_le in X end.
    repeat split; try lia. intros r p R1 R2 S0 P L.
    match goal with X : range_free _ _ _ = true |- _ => unfold range_free in X; rewrite forallb_forall in X;
       specialize (X r ltac:(apply in_seq; lia)); rewrite R2, S0 in X; cbn in X; unfold start_of, end_of, overlap in X; rewrite S0 in X;
       apply negb_true_iff, andb_false_iff in X; unfold lies_in in L; destruct X as [X|X]; apply Z.ltb_ge in X; lia end. }
  constructor; cbn [nobj objs live reg word cntr heap thr log dead ub]; auto.
  - intros r X. apply LV in X. destruct X as [->|[X _]]; lia.
  - intros r X. destruct (Nat.eq_dec r (nobj s)) as [->|N].
    + rewrite SN. cbn. intros S0. unfold updn. rewrite Nat.eqb_refl. destruct (GG S0) as (? & ? & ? & ? & _). repeat split; lia.
    + rewrite SO by lia. intros S0. unfold updn. destruct (Nat.eqb_spec r (nobj s)); [lia|]. apply B; [lia|exact S0].
  - intros r r' p L1 L2. unfold lies_in. cbn [objs]. apply LV in L1, L2.
    destruct L1 as [->|[L1 L1']], L2 as [->|[L2 L2']]; auto.
    + rewrite SN, SO by lia. cbn. intros S1 S2 P1 P2. destruct (GG S1) as (_ & _ & _ & _ & X). destruct (X r' p L2 L2' S2 P1 P2).
    + rewrite SN, SO by lia. cbn. intros S1 S2 P1 P2. destruct (GG S2) as (_ & _ & _ & _ & X). destruct (X r p L1 L1' S1 P2 P1).
    + rewrite !SO by lia. intros. eapply C; eauto.
  - intros i r [X|X].
    + injection X as <- <-. rewrite SN. cbn. auto.
    + destruct (D _ _ X) as [X1 X2]. rewrite SO by lia. split; [lia|exact X2].
Qed.

Lemma geo_step s l s' : Geo s -> step s l = Some s' -> Geo s'.
Proof.
  intros I H. unfold step in H. destruct (dead s || ub s); [discriminate|].
  pose proof I as [A B C D E F].
  destruct l as [id base size c sim|r|r|p v|t p n sz a|t x|t p q].
  - eapply geo_map; eauto.
  - destruct (_ && _); [|discriminate]. injection H as <-.
    constructor; cbn [nobj objs live reg word cntr heap thr log dead ub]; auto.
    intros id r' X. apply filter_In in X. apply (D id r'), X.
  - destruct (_ && negb _); [|discriminate]. injection H as <-.
    assert (LV : forall r', updn (live s) r false r' = true -> live s r' = true).
    { intros r'. unfold updn. destruct (Nat.eqb_spec r' r); [discriminate|auto]. }
    constructor; cbn [nobj objs live reg word cntr heap thr log dead ub]; auto.
    intros r1 r2 p X Y. apply LV in X, Y. exact (C r1 r2 p X Y).
  - injection H as <-. constructor; auto.
  - destruct (thr s t) eqn:T; try discriminate. destruct (_ && _) eqn:G; [|discriminate]. injection H as <-.
    apply andb_true_iff in G. destruct G as [G G3]. apply andb_true_iff in G. destruct G as [G1 G2].
    apply Z.leb_le in G1. apply Z.ltb_lt in G2, G3. unfold call.
    destruct (Z.leb_spec W64 (n * sz)); [apply geo_kill, I|].
    destruct (find (word s p) (reg s)); [|apply geo_kill, I].
    destruct (_ && _); [|apply geo_kill, I]. constructor; auto. intros t'. cbn. unfold updn. destruct (Nat.eqb_spec t' t); [auto|apply E].
  - pose proof (E t) as Et. destruct (thr s t) eqn:T; [discriminate| |].
    + injection H as <-. unfold look_up. destruct (find (word s p) (reg s)); [|apply geo_kill, I].
      constructor; auto. intros t'. cbn. unfold updn. destruct (Nat.eqb_spec t' t); [auto|apply E].
    + unfold use in H. destruct (live s r) eqn:L; cbn [negb] in H; [|injection H as <-; apply geo_ub, I].
      destruct (osim (objs s r)) eqn:S0.
      * destruct (_ || _); [discriminate|]. injection H as <-. constructor; auto.
        -- intros t'. cbn. unfold updn. destruct (Nat.eqb_spec t' t); [auto|apply E].
        -- cbn. intros e [<-|X]; [|apply F, X]. cbn. destruct Et as (? & ? & ? & ?). nia.
      * destruct (B r (A _ L) S0) as (G1 & G2 & G3 & G4). destruct Et as (E1 & E2 & E3 & E4).
        rewrite AllocProps.reserve_spec in H by (unfold AllocProps.is_size; nia).
        pose proof (AllocProps.align_up_spec (obase (objs s r) + cntr s r) a E4) as [M Q].
        set (q := align_up (obase (objs s r) + cntr s r) a) in *.
        destruct (Z.leb_spec (q + n * sz) (obase (objs s r) + osize (objs s r))); injection H as <-; [|apply geo_kill, I].
        constructor; cbn [nobj objs live reg word cntr heap thr log dead ub]; auto.
        -- intros r' X Y. specialize (B r' X Y). unfold updn. destruct (Nat.eqb_spec r' r); [subst|exact B]. repeat split; try tauto; nia.
        -- intros t'. unfold updn. destruct (Nat.eqb_spec t' t); [exact Logic.I|apply E].
        -- intros e [<-|X]; [|apply F, X]. cbn. nia.
  - destruct (thr s t); try discriminate. injection H as <-. unfold free.
    destruct (find (word s p) (reg s)) as [r|] eqn:FI; [|exact I].
    destruct (negb (live s r)); [apply geo_ub, I|]. destruct (osim (objs s r)); [|exact I].
    destruct (existsb _ _); [constructor; auto|apply geo_ub, I].
Qed.

Theorem geo_reach ok s : reach ok s -> Geo s.
Proof.
  induction 1; [|eapply geo_step; eauto]. constructor; cbn; auto; try tauto; try discriminate. intros r H. inversion H.
Qed.
