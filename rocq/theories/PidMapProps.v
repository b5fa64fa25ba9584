(** C23: the application id -> process id table. *)
From Verif Require Import Base PidMapModel.
Local Open Scope N_scope.

(** * Specification vocabulary *)
Definition is_app (a : N) : Prop := a < 4294967296.

(** At any time at most one process per application registers (application ids are unique, a process
    registers again only after its predecessor is gone). *)
Fixpoint exclusive (n : nat) (s : rst) (ls : list rlabel) : Prop :=
  match ls with
  | [] => True
  | l :: ls =>
      match l with
      | RStart p a _ => is_app a /\ forall q, q <> p -> active (pcs s q) <> Some a
      | _ => True
      end /\ exclusive n (rstep n s l) ls
  end.

Definition no_spurious (ls : list rlabel) : Prop := forall p, ~ In (RStep p true) ls.

(** * Keys *)
Lemma key_split st a : is_app a -> CreateKey st a = st * 4294967296 + a.
Proof.
  intros A. unfold CreateKey.
  assert (D : N.land (N.shiftl st 32) a = 0).
  { apply N.bits_inj. intros b. rewrite N.land_spec, N.bits_0. destruct (N.ltb_spec b 32).
    - rewrite N.shiftl_spec_low by lia. reflexivity.
    - replace (N.testbit a b) with false; [apply Bool.andb_false_r|]. symmetry. destruct (N.eq_dec a 0) as [->|NZ]; [apply N.bits_0|].
      apply N.bits_above_log2. apply N.log2_lt_pow2; [lia|]. unfold is_app in A. apply N.lt_le_trans with (2 ^ 32); [exact A|].
      apply N.pow_le_mono_r; lia. }
  rewrite <- N.lxor_lor by exact D. rewrite <- N.add_nocarry_lxor by exact D. rewrite N.shiftl_mul_pow2. reflexivity.
Qed.

Lemma key_app_of st a : is_app a -> key_app (CreateKey st a) = a.
Proof.
  intros A. unfold key_app. rewrite key_split by exact A. change 4294967295 with (N.ones 32). rewrite N.land_ones.
  change (2 ^ 32) with 4294967296. rewrite N.add_comm, N.mod_add by lia. apply N.mod_small. exact A.
Qed.

Lemma key_status_of st a : is_app a -> st < 65536 -> key_status (CreateKey st a) = st.
Proof.
  intros A S. unfold key_status. rewrite key_split by exact A. rewrite N.shiftr_div_pow2.
  change (2 ^ 32) with 4294967296. rewrite N.add_comm, N.div_add by lia. rewrite N.div_small by exact A. cbn [N.add].
  change 65535 with (N.ones 16). rewrite N.land_ones. apply N.mod_small. exact S.
Qed.

Theorem C23_key_round_trip : forall st a, is_app a -> st < 65536 ->
  key_status (CreateKey st a) = st /\ key_app (CreateKey st a) = a.
Proof. intros. split; [apply key_status_of|apply key_app_of]; auto. Qed.

Local Arguments CreateKey : simpl never.
Local Arguments key_status : simpl never.
Local Arguments key_app : simpl never.

(** * Invariant *)
Definition stat (s : rst) i := key_status (e_key (ents s i)).
Definition appo (s : rst) i := key_app (e_key (ents s i)).
Definition mine (s : rst) (a : N) i := stat s i <> kUnused /\ appo s i = a.

Section Inv.
Variable n : nat.

Definition pc_inv (s : rst) (c : rpc) : Prop :=
  match c with
  | RScan a _ g i => is_app a /\ registered n s a = g /\ forall j, (j < i)%nat -> ~ mine s a j
  | RUpd a _ g i => is_app a /\ (i < n)%nat /\ stat s i = kUsed /\ appo s i = a /\ g = Some (e_pid (ents s i))
  | RUpdW a _ g i old => is_app a /\ (i < n)%nat /\ stat s i = kUsed /\ appo s i = a /\ g = Some old
  | RTake a _ g i => is_app a /\ (i < n)%nat /\ stat s i = kUpdating /\ appo s i = a /\ g = None
  | RTakeU a pid g i | RSetU a pid g i => is_app a /\ (i < n)%nat /\ stat s i = kUpdating /\ appo s i = a /\ g = None /\ e_pid (ents s i) = pid
  | RSet a _ g i => is_app a /\ (i < n)%nat /\ stat s i = kUpdating /\ appo s i = a /\ g = None
  | RFree a _ g _ _ => is_app a /\ g = None /\ forall j, (j < n)%nat -> ~ mine s a j
  | RCas a _ g _ i k => is_app a /\ (i < n)%nat /\ g = None /\ k = 0 /\ forall j, (j < n)%nat -> ~ mine s a j
  | _ => True
  end.

Record RInv (s : rst) : Prop := {
  ri_key : forall i, e_key (ents s i) = 0 \/ exists st a, is_app a /\ (st = kUsed \/ st = kUpdating) /\ e_key (ents s i) = CreateKey st a;
  ri_uniq : forall i j, (i < n)%nat -> (j < n)%nat -> stat s i <> kUnused -> stat s j <> kUnused -> appo s i = appo s j -> i = j;
  ri_excl : forall p q a, active (pcs s p) = Some a -> active (pcs s q) = Some a -> p = q;
  ri_pc : forall p, pc_inv s (pcs s p) }.

Lemma reg_spec s a m : forall i, reg_upto s a i m = None <-> (forall j, (i <= j < i + m)%nat -> ~ (stat s j = kUsed /\ appo s j = a)).
Proof.
  induction m as [|m IH]; cbn [reg_upto]; intros i; [split; [intros _ j J; lia|auto]|].
  fold (stat s i). fold (appo s i). destruct (N.eqb_spec (stat s i) kUsed) as [E|E]; [destruct (N.eqb_spec (appo s i) a) as [F|F]|]; cbn [andb].
  - split; [discriminate|]. intros H. destruct (H i ltac:(lia)). auto.
  - rewrite IH. split; intros H j J; [destruct (Nat.eq_dec i j) as [<-|]; [tauto|apply H; lia]|apply H; lia].
  - rewrite IH. split; intros H j J; [destruct (Nat.eq_dec i j) as [<-|]; [tauto|apply H; lia]|apply H; lia].
Qed.

Lemma reg_some s a i : RInv s -> (i < n)%nat -> stat s i = kUsed -> appo s i = a -> registered n s a = Some (e_pid (ents s i)).
Proof.
  intros H L S A. unfold registered.
  assert (G : forall m k, (k <= i < k + m)%nat -> (k + m <= n)%nat -> reg_upto s a k m = Some (e_pid (ents s i))).
  { induction m as [|m IH]; intros k K1 K2; [lia|]. cbn [reg_upto]. fold (stat s k). fold (appo s k).
    destruct (N.eqb_spec (stat s k) kUsed) as [E|E]; [destruct (N.eqb_spec (appo s k) a) as [F|F]|]; cbn [andb].
    - assert (k = i) as ->; [|reflexivity]. apply (ri_uniq _ H); try lia; try congruence; rewrite ?E, ?S; discriminate.
    - apply IH; [|lia]. assert (k <> i) by congruence. lia.
    - apply IH; [|lia]. assert (k <> i) by congruence. lia. }
  apply G; lia.
Qed.

(** what a step of process p with application b leaves alone *)
Definition frame (s s' : rst) (b : N) : Prop :=
  forall i, ents s' i = ents s i \/
    ((stat s i = kUnused \/ appo s i = b) /\ stat s' i <> kUnused /\ appo s' i = b).

Lemma frame_mine s s' b a i : frame s s' b -> a <> b -> (mine s' a i <-> mine s a i) /\ (mine s a i -> ents s' i = ents s i).
Proof.
  intros F N. destruct (F i) as [E|[[A|A] [B C]]].
  - unfold mine, stat, appo. rewrite E. tauto.
  - unfold mine. split; [split; intros [X Y]; congruence|intros [X Y]; congruence].
  - unfold mine. split; [split; intros [X Y]; congruence|intros [X Y]; congruence].
Qed.

Lemma used_mine s a i : stat s i = kUsed -> appo s i = a -> mine s a i.
Proof. intros A B. split; [rewrite A; discriminate|exact B]. Qed.
Lemma upd_mine s a i : stat s i = kUpdating -> appo s i = a -> mine s a i.
Proof. intros A B. split; [rewrite A; discriminate|exact B]. Qed.

Lemma frame_reg s s' b a : frame s s' b -> a <> b -> registered n s' a = registered n s a.
Proof.
  intros F N. unfold registered. generalize 0%nat. induction n as [|m IH]; intros i; cbn [reg_upto]; [reflexivity|].
  rewrite IH. fold (stat s i). fold (appo s i). fold (stat s' i). fold (appo s' i).
  destruct (F i) as [E|[[A|A] [B C]]].
  - unfold stat, appo. rewrite E. reflexivity.
  - rewrite A. rewrite C. destruct (N.eqb_spec b a); [congruence|]. rewrite Bool.andb_false_r. reflexivity.
  - rewrite A, C. destruct (N.eqb_spec b a); [congruence|]. rewrite !Bool.andb_false_r. reflexivity.
Qed.

Lemma frame_pc s s' b c : frame s s' b -> active c <> Some b -> pc_inv s c -> pc_inv s' c.
Proof.
  intros F N. assert (FM : forall a i, a <> b -> (mine s' a i <-> mine s a i) /\ (mine s a i -> ents s' i = ents s i)) by (intros; eapply frame_mine; eauto).
  destruct c as [|a pid g i|a pid g i|a pid g i old|a pid g i|a pid g i|a pid g r i|a pid g r i k|a pid g i|a pid g i|a pid g res|]; cbn [pc_inv active] in *; auto;
    assert (NB : a <> b) by congruence.
  - intros (A & R & M). split; [exact A|]. split; [rewrite (frame_reg s s' b a F NB); exact R|]. intros j J. rewrite (proj1 (FM a j NB)). auto.
  - intros (A & L & S & P & G). pose proof (proj2 (FM a i NB) (used_mine _ _ _ S P)) as E. unfold stat, appo in *. rewrite E. auto.
  - intros (A & L & S & P & G). pose proof (proj2 (FM a i NB) (used_mine _ _ _ S P)) as E. unfold stat, appo in *. rewrite E. auto.
  - intros (A & L & S & P & G). pose proof (proj2 (FM a i NB) (upd_mine _ _ _ S P)) as E. unfold stat, appo in *. rewrite E. auto.
  - intros (A & L & S & P & G & I). pose proof (proj2 (FM a i NB) (upd_mine _ _ _ S P)) as E. unfold stat, appo in *. rewrite E. auto 6.
  - intros (A & G & M). split; [exact A|]. split; [exact G|]. intros j J. rewrite (proj1 (FM a j NB)). auto.
  - intros (A & L & G & K & M). split; [exact A|]. split; [exact L|]. split; [exact G|]. split; [exact K|]. intros j J. rewrite (proj1 (FM a j NB)). auto.
  - intros (A & L & S & P & G). pose proof (proj2 (FM a i NB) (upd_mine _ _ _ S P)) as E. unfold stat, appo in *. rewrite E. auto.
  - intros (A & L & S & P & G & I). pose proof (proj2 (FM a i NB) (upd_mine _ _ _ S P)) as E. unfold stat, appo in *. rewrite E. auto 6.
Qed.

Lemma reg_pc s p c a : registered n (r_pc s p c) a = registered n s a.
Proof.
  unfold registered. generalize 0%nat. induction n as [|m IH]; intros i; cbn [reg_upto r_pc ents]; [reflexivity|].
  unfold r_pc in IH. rewrite IH. reflexivity.
Qed.

Lemma pc_inv_pc s p c c' : pc_inv s c' -> pc_inv (r_pc s p c) c'.
Proof. pose proof (reg_pc s p c) as R. destruct c'; cbn [pc_inv]; try rewrite R; auto. Qed.

(** changing only the program counter of p *)
Lemma RInv_pc s p c : RInv s -> pc_inv s c ->
  (forall a, active c = Some a -> active (pcs s p) = Some a \/ forall q, q <> p -> active (pcs s q) <> Some a) -> RInv (r_pc s p c).
Proof.
  intros H P A. destruct H as [K U X I]. constructor; cbn [ents pcs r_pc]; auto.
  - intros q1 q2 a. destruct (Nat.eq_dec q1 p) as [->|N1], (Nat.eq_dec q2 p) as [->|N2]; rewrite ?fupd_eq, ?fupd_neq by auto; auto.
    + intros E1 E2. destruct (A a E1) as [Q|Q]; [apply (X _ _ a); auto|destruct (Q q2 N2 E2)].
    + intros E1 E2. destruct (A a E2) as [Q|Q]; [apply (X _ _ a); auto|destruct (Q q1 N1 E1)].
    + apply X.
  - intros q. destruct (Nat.eq_dec q p) as [->|N]; [rewrite fupd_eq; apply pc_inv_pc; exact P|rewrite fupd_neq by exact N; apply pc_inv_pc; apply I].
Qed.

Lemma RInv_keep s p c : RInv s -> (active c = None \/ active c = active (pcs s p)) -> pc_inv s c -> RInv (r_pc s p c).
Proof. intros H A P. apply RInv_pc; auto. intros a E. destruct A as [A|A]; left; congruence. Qed.

(** changing an entry that belongs to p's application, or was unused *)
Lemma RInv_ent s p b i e c : RInv s -> active (pcs s p) = Some b -> is_app b ->
  (stat s i = kUnused /\ (forall j, (j < n)%nat -> ~ mine s b j) \/ mine s b i) -> (i < n)%nat ->
  (e_key e = CreateKey kUsed b \/ e_key e = CreateKey kUpdating b) ->
  let s' := r_pc (r_ent s i e) p c in
  (active c = Some b \/ active c = None) -> pc_inv s' c -> RInv s'.
Proof.
  intros H AC AB OWN L EK s' CA CI.
  assert (SI : stat s' i <> kUnused /\ appo s' i = b).
  { unfold stat, appo. subst s'. cbn [ents r_pc r_ent]. rewrite fupd_eq.
    destruct EK as [->| ->]; rewrite key_status_of, key_app_of by (auto; reflexivity); split; auto; discriminate. }
  assert (F : frame s s' b).
  { intros j. destruct (Nat.eq_dec j i) as [->|N]; [right|left; subst s'; cbn; apply fupd_neq; exact N].
    split; [destruct OWN as [[Q _]|[_ Q]]; auto|exact SI]. }
  destruct H as [K U X I]. constructor.
  - intros j. subst s'. cbn [ents r_pc r_ent]. destruct (Nat.eq_dec j i) as [->|N]; [|rewrite fupd_neq by exact N; apply K].
    rewrite fupd_eq. right. destruct EK as [->| ->]; eauto 7.
  - intros j1 j2 L1 L2 S1 S2 E.
    assert (SAME : forall j, j <> i -> stat s' j = stat s j /\ appo s' j = appo s j).
    { intros j N. unfold stat, appo. subst s'. cbn [ents r_pc r_ent]. rewrite fupd_neq by exact N. auto. }
    assert (MI : forall j, (j < n)%nat -> j <> i -> stat s' j <> kUnused -> appo s' j = b -> False).
    { intros j LJ N SJ AJ. destruct (SAME j N) as [E1 E2]. rewrite E1 in SJ. rewrite E2 in AJ.
      destruct OWN as [[_ Q]|[Q1 Q2]]; [apply (Q j LJ); split; auto|]. apply N. apply (U j i); auto. congruence. }
    destruct (Nat.eq_dec j1 i) as [->|N1], (Nat.eq_dec j2 i) as [->|N2]; auto.
    + exfalso. apply (MI j2); auto. destruct SI. congruence.
    + exfalso. apply (MI j1); auto. destruct SI. congruence.
    + destruct (SAME _ N1) as [E1 E2], (SAME _ N2) as [E3 E4]. rewrite E1 in S1. rewrite E3 in S2. rewrite E2, E4 in E. apply (U j1 j2); auto.
  - subst s'. cbn [pcs r_pc r_ent]. intros q1 q2 a. destruct (Nat.eq_dec q1 p) as [->|N1], (Nat.eq_dec q2 p) as [->|N2]; rewrite ?fupd_eq, ?fupd_neq by auto; auto.
    + intros E1 E2. destruct CA as [CA|CA]; rewrite CA in E1; [|discriminate]. injection E1 as <-. apply (X _ _ b); auto.
    + intros E1 E2. destruct CA as [CA|CA]; rewrite CA in E2; [|discriminate]. injection E2 as <-. apply (X _ _ b); auto.
    + apply X.
  - intros q. destruct (Nat.eq_dec q p) as [->|N].
    + subst s'. cbn [pcs r_pc]. rewrite fupd_eq. exact CI.
    + replace (pcs s' q) with (pcs s q) by (subst s'; cbn; rewrite fupd_neq by exact N; reflexivity).
      eapply frame_pc; [exact F| |apply I]. intros E. apply N. apply (X _ _ b); auto.
Qed.

Lemma key_cases s i : RInv s -> e_key (ents s i) = CreateKey (stat s i) (appo s i) /\ is_app (appo s i) /\
  (stat s i = kUnused /\ e_key (ents s i) = 0 \/ stat s i = kUsed \/ stat s i = kUpdating).
Proof.
  intros H. unfold stat, appo. destruct (ri_key _ H i) as [E|(st & a & A & [-> | ->] & E)]; rewrite E.
  - split; [reflexivity|]. split; [reflexivity|]. left. split; reflexivity.
  - rewrite key_status_of, key_app_of by (auto; reflexivity). auto.
  - rewrite key_status_of, key_app_of by (auto; reflexivity). auto.
Qed.

Lemma RInv_step s l : RInv s ->
  match l with RStart p a _ => is_app a /\ forall q, q <> p -> active (pcs s q) <> Some a | _ => True end ->
  RInv (rstep n s l).
Proof.
  intros H V. destruct l as [p a pid|p sp|p]; cbn [rstep].
  - destruct V as [A X]. case_eq (active (pcs s p)); intros; [exact H|]. apply RInv_pc; auto.
    + cbn. split; [exact A|]. split; [reflexivity|]. intros j J. lia.
    + intros b E. injection E as <-. right. exact X.
  - pose proof (ri_pc _ H p) as P.
    destruct (pcs s p) as [|a pid g i|a pid g i|a pid g i old|a pid g i|a pid g i|a pid g r i|a pid g r i k|a pid g i|a pid g i|a pid g res|] eqn:PC;
      try exact H; cbn [pc_inv] in P.
    + destruct P as (A & R & M). destruct (Nat.ltb_spec i n) as [L|L].
      * fold (stat s i) (appo s i). destruct (N.eqb_spec (stat s i) kUsed) as [S|S]; [destruct (N.eqb_spec (appo s i) a) as [E|E]|]; cbn [andb].
        -- apply RInv_keep; [exact H|rewrite PC; cbn; auto|]. cbn. split; [exact A|]. split; [exact L|]. split; [exact S|]. split; [exact E|]. rewrite <- R. apply reg_some; auto.
        -- rewrite Bool.andb_false_r. apply RInv_keep; [exact H|rewrite PC; cbn; auto|]. cbn. split; [exact A|]. split; [exact R|]. intros j J.
           destruct (Nat.eq_dec j i) as [->|]; [intros [_ Q]; congruence|apply M; lia].
        -- destruct (N.eqb_spec (stat s i) kUpdating) as [T|T]; [destruct (N.eqb_spec (appo s i) a) as [E|E]|]; cbn [andb].
           ++ apply RInv_keep; [exact H|rewrite PC; cbn; auto|]. cbn. split; [exact A|]. split; [exact L|]. split; [exact T|]. split; [exact E|]. rewrite <- R.
              apply reg_spec. intros j J [Q1 Q2]. assert (j = i) as ->; [apply (ri_uniq _ H); try lia; try congruence; rewrite ?Q1, ?T; discriminate|]. congruence.
           ++ apply RInv_keep; [exact H|rewrite PC; cbn; auto|]. cbn. split; [exact A|]. split; [exact R|]. intros j J.
              destruct (Nat.eq_dec j i) as [->|]; [intros [_ Q]; congruence|apply M; lia].
           ++ apply RInv_keep; [exact H|rewrite PC; cbn; auto|]. cbn. split; [exact A|]. split; [exact R|]. intros j J.
              destruct (Nat.eq_dec j i) as [->|]; [|apply M; lia]. intros [Q1 Q2]. destruct (key_cases s i H) as (_ & _ & [[Z _]|[Z|Z]]); congruence.
      * apply RInv_keep; [exact H|rewrite PC; cbn; auto|]. cbn. split; [exact A|].
        split; [rewrite <- R; apply reg_spec; intros j J [Q1 Q2]; apply (M j ltac:(lia)); apply used_mine; auto|]. intros j J. apply M. lia.
    + destruct P as (A & L & S & E & G). apply RInv_keep; [exact H|rewrite PC; cbn; auto|]. cbn. auto.
    + destruct P as (A & L & S & E & G). apply RInv_ent with (b := a); [exact H|rewrite PC; reflexivity|exact A|right; apply used_mine; auto|exact L| |right; reflexivity|exact I].
      left. cbn. destruct (key_cases s i H) as (KE & _). rewrite S, E in KE. exact KE.
    + destruct P as (A & L & S & E & G). apply RInv_ent with (b := a); [exact H|rewrite PC; reflexivity|exact A|right; apply upd_mine; auto|exact L| |left; reflexivity|].
      * right. cbn. destruct (key_cases s i H) as (KE & _). rewrite S, E in KE. exact KE.
      * cbn [pc_inv]. unfold stat, appo. cbn [ents r_pc r_ent]. rewrite fupd_eq. cbn. auto 7.
    + destruct P as (A & L & S & E & G & _). apply RInv_ent with (b := a); [exact H|rewrite PC; reflexivity|exact A|right; apply upd_mine; auto|exact L|left; reflexivity|right; reflexivity|exact I].
    + destruct P as (A & G & M). destruct (Nat.ltb_spec i n) as [L|L].
      * fold (stat s i). destruct (N.eqb_spec (stat s i) kUnused) as [S|S].
        -- apply RInv_keep; [exact H|rewrite PC; cbn; auto|]. cbn. split; [exact A|]. split; [exact L|]. split; [exact G|]. split; [|exact M].
           destruct (key_cases s i H) as (KE & _ & [[_ Z]|[Z|Z]]); [|rewrite S in Z; discriminate|rewrite S in Z; discriminate].
           fold (appo s i). rewrite <- KE. exact Z.
        -- apply RInv_keep; [exact H|rewrite PC; cbn; auto|]. cbn. auto.
      * destruct (_ <? _)%nat; (apply RInv_keep; [exact H|rewrite PC; cbn; auto|cbn; auto]).
    + destruct P as (A & L & G & KK & M). subst k.
      destruct (N.eqb_spec (e_key (ents s i)) 0) as [Z|Z]; cbn [andb]; [destruct sp; cbn [negb]|].
      * (apply RInv_keep; [exact H|rewrite PC; cbn; auto|cbn; auto]).
      * apply RInv_ent with (b := a); [exact H|rewrite PC; reflexivity|exact A|left; split; [unfold stat; rewrite Z; reflexivity|exact M]|exact L|right; reflexivity|left; reflexivity|].
        cbn [pc_inv]. unfold stat, appo. cbn [ents r_pc r_ent]. rewrite fupd_eq. cbn [e_key]. rewrite key_status_of, key_app_of by (auto; reflexivity). auto 6.
      * (apply RInv_keep; [exact H|rewrite PC; cbn; auto|cbn; auto]).
    + destruct P as (A & L & S & E & G). apply RInv_ent with (b := a); [exact H|rewrite PC; reflexivity|exact A|right; apply upd_mine; auto|exact L| |left; reflexivity|].
      * right. cbn. destruct (key_cases s i H) as (KE & _). rewrite S, E in KE. exact KE.
      * cbn [pc_inv]. unfold stat, appo. cbn [ents r_pc r_ent]. rewrite fupd_eq. cbn. auto 7.
    + destruct P as (A & L & S & E & G & _). apply RInv_ent with (b := a); [exact H|rewrite PC; reflexivity|exact A|right; apply upd_mine; auto|exact L|left; reflexivity|right; reflexivity|exact I].
  - apply RInv_keep; [exact H|left; reflexivity|exact I].
Qed.

Lemma RInv_init : RInv rinit.
Proof.
  constructor; cbn; auto; try discriminate. intros i j _ _ S. destruct S. reflexivity.
Qed.

Lemma RInv_run ls : exclusive n rinit ls -> RInv (rrun n rinit ls).
Proof.
  pose proof RInv_init as H. revert H. generalize rinit. induction ls as [|l ls IH]; cbn [rrun exclusive]; intros s H E; [exact H|].
  destruct E as [V E]. apply IH; auto. apply RInv_step; auto.
Qed.
End Inv.

(** * C23 *)

(** At most one process is registered per application. *)
Theorem C23_one_entry_per_application : forall n ls i j, exclusive n rinit ls -> let s := rrun n rinit ls in
  (i < n)%nat -> (j < n)%nat -> stat s i <> kUnused -> stat s j <> kUnused -> appo s i = appo s j -> i = j.
Proof. intros n ls i j E. cbn zeta. apply ri_uniq, RInv_run, E. Qed.

(** When a call ends successfully it returns the process registered when it began, or its own if there
    was none, and from then on its own is registered. *)
Theorem C23_returns_previous : forall n ls l p a pid g r, exclusive n rinit (ls ++ [l]) ->
  let s := rrun n rinit ls in let s' := rstep n s l in
  active (pcs s p) = Some a -> pcs s' p = RDone a pid g (Some r) ->
  r = match g with Some old => old | None => pid end /\ registered n s' a = Some pid.
Proof.
  intros n ls l p a pid g r E. cbn zeta.
  assert (EX : exclusive n rinit ls /\ forall sp, l = RStep p sp -> True).
  { split; [|auto]. clear - E. revert E. generalize rinit. induction ls as [|x ls IH]; cbn; intros s; [auto|]. intros [A B]. split; [exact A|]. apply IH, B. }
  destruct EX as [EX _]. pose proof (RInv_run n ls EX) as H. set (s := rrun n rinit ls) in *. intros AC D.
  assert (V : match l with RStart p a _ => is_app a /\ forall q, q <> p -> active (pcs s q) <> Some a | _ => True end).
  { clear - E. subst s. revert E. generalize rinit. induction ls as [|x ls IH]; cbn; intros s; [tauto|]. intros [A B]. apply IH, B. }
  pose proof (RInv_step n s l H V) as H'.
  assert (LP : exists sp, l = RStep p sp).
  { destruct l as [q b pid'|q sp|q]; cbn [rstep] in D.
    - destruct (active (pcs s q)); [rewrite D in AC; discriminate|]. cbn in D. destruct (Nat.eq_dec p q) as [->|N]; [rewrite fupd_eq in D; discriminate|rewrite fupd_neq in D by exact N; rewrite D in AC; discriminate].
    - destruct (Nat.eq_dec p q) as [->|N]; [eauto|]. exfalso.
      assert (SAME : pcs (rstep n s (RStep q sp)) p = pcs s p).
      { cbn [rstep]. destruct (pcs s q); auto; repeat match goal with |- context [if ?b then _ else _] => destruct b end; cbn; apply fupd_neq; exact N. }
      cbn [rstep] in SAME. rewrite SAME in D. rewrite D in AC. discriminate.
    - cbn in D. destruct (Nat.eq_dec p q) as [->|N]; [rewrite fupd_eq in D; discriminate|rewrite fupd_neq in D by exact N; rewrite D in AC; discriminate]. }
  destruct LP as [sp ->]. pose proof (ri_pc _ _ H p) as P. cbn [rstep] in D, H' |- *.
  destruct (pcs s p) as [|b pid' g' i|b pid' g' i|b pid' g' i old|b pid' g' i|b pid' g' i|b pid' g' rr i|b pid' g' rr i k|b pid' g' i|b pid' g' i|b pid' g' res|] eqn:PC;
    cbn [active] in AC; try discriminate AC; injection AC as ->; cbn [pc_inv] in P;
    try (repeat match type of D with context [if ?b then _ else _] => destruct b end; cbn in D; rewrite fupd_eq in D; discriminate D).
  - destruct P as (A & L & S & X & G). pose proof D as D'. cbn in D'. rewrite fupd_eq in D'. injection D' as -> -> ->. split; [rewrite G; reflexivity|].
    transitivity (Some (e_pid (ents (r_pc (r_ent s i (mkE (e_key (ents s i)) pid)) p (RDone a pid g (Some r))) i))).
    + apply reg_some; auto; unfold stat, appo; cbn; rewrite fupd_eq; cbn; assumption.
    + cbn. rewrite fupd_eq. reflexivity.
  - destruct P as (A & L & S & X & G & Q). pose proof D as D'. cbn in D'. rewrite fupd_eq in D'. injection D' as -> -> ->. subst g. split; [reflexivity|].
    subst r. eapply eq_trans; [apply (reg_some n _ a i)|]; auto; unfold stat, appo; cbn; rewrite ?fupd_eq; cbn [e_key e_pid]; rewrite ?key_status_of, ?key_app_of by (auto; reflexivity); auto.
  - destruct P as (A & L & S & X & G & Q). pose proof D as D'. cbn in D'. rewrite fupd_eq in D'. injection D' as -> -> ->. subst g. split; [reflexivity|].
    subst r. eapply eq_trans; [apply (reg_some n _ a i)|]; auto; unfold stat, appo; cbn; rewrite ?fupd_eq; cbn [e_key e_pid]; rewrite ?key_status_of, ?key_app_of by (auto; reflexivity); auto.
Qed.

(** No step of a process working for another application changes what is registered. *)
Theorem C23_others_unaffected : forall n ls l a, exclusive n rinit (ls ++ [l]) ->
  let s := rrun n rinit ls in
  match l with RStart p b _ => b <> a | RStep p _ => active (pcs s p) <> Some a | RCrash _ => True end ->
  registered n (rstep n s l) a = registered n s a.
Proof.
  intros n ls l a E. cbn zeta.
  assert (EX : exclusive n rinit ls).
  { clear - E. revert E. generalize rinit. induction ls as [|x ls IH]; cbn; intros s; [auto|]. intros [A B]. split; [exact A|]. apply IH, B. }
  pose proof (RInv_run n ls EX) as H. set (s := rrun n rinit ls) in *.
  assert (PCONLY : forall p c, registered n (r_pc s p c) a = registered n s a).
  { intros p c. apply reg_pc. }
  destruct l as [p b pid|p sp|p]; cbn [rstep]; intros V.
  - destruct (active (pcs s p)); auto.
  - pose proof (ri_pc _ _ H p) as P.
    assert (ENT : forall b i e c, b <> a -> is_app b -> (e_key e = CreateKey kUsed b \/ e_key e = CreateKey kUpdating b) -> (stat s i = kUnused \/ appo s i = b) ->
              registered n (r_pc (r_ent s i e) p c) a = registered n s a).
    { intros b i e c N A K O. eapply frame_reg with (b := b); [|auto]. intros j. destruct (Nat.eq_dec j i) as [->|NJ]; [right|left; cbn; apply fupd_neq; exact NJ].
      split; [exact O|]. unfold stat, appo. cbn. rewrite fupd_eq. destruct K as [->| ->]; rewrite key_status_of, key_app_of by (auto; reflexivity); split; auto; discriminate. }
    destruct (pcs s p) as [|b pid g i|b pid g i|b pid g i old|b pid g i|b pid g i|b pid g r i|b pid g r i k|b pid g i|b pid g i|b pid g res|]; cbn [pc_inv active] in *; auto;
      assert (NB : b <> a) by congruence.
    + repeat match goal with |- context [if ?b then _ else _] => destruct b end; apply PCONLY.
    + destruct P as (A & L & S & X & G). destruct (key_cases n s i H) as (KE & _). rewrite S, X in KE. apply (ENT b); auto.
    + destruct P as (A & L & S & X & G). destruct (key_cases n s i H) as (KE & _). rewrite S, X in KE. apply (ENT b); auto.
    + destruct P as (A & L & S & X & G & _). apply (ENT b); auto.
    + repeat match goal with |- context [if ?b then _ else _] => destruct b end; apply PCONLY.
    + destruct P as (A & L & G & K & M). subst k. destruct (N.eqb_spec (e_key (ents s i)) 0) as [Z|Z]; cbn [andb]; [destruct (negb sp)|]; try apply PCONLY.
      apply (ENT b); auto. left. unfold stat. rewrite Z. reflexivity.
    + destruct P as (A & L & S & X & G). destruct (key_cases n s i H) as (KE & _). rewrite S, X in KE. apply (ENT b); auto.
    + destruct P as (A & L & S & X & G & _). apply (ENT b); auto.
  - apply PCONLY.
Qed.

(** A registration fails only if no entry is unused (spurious failures of compare_exchange_weak apart). *)
Theorem C23_fails_only_if_full_partial : forall n ls p a pid g i, exclusive n rinit ls -> no_spurious ls ->
  let s := rrun n rinit ls in pcs s p = RDone a pid g None -> (i < n)%nat -> stat s i <> kUnused.
Proof.
  intros n ls p a pid g i E NS. cbn zeta.
  pose (J := fun s : rst => forall q, match pcs s q with
             | RFree _ _ _ r k | RCas _ _ _ r k _ => forall j, (j < k)%nat -> (j < n)%nat -> stat s j <> kUnused
             | RDone _ _ _ None => forall j, (j < n)%nat -> stat s j <> kUnused
             | _ => True end).
  assert (G : RInv n (rrun n rinit ls) /\ J (rrun n rinit ls)).
  { assert (J0 : J rinit) by (intros q; cbn; exact I). pose proof (RInv_init n) as H0. revert H0 J0 E NS. generalize rinit.
    induction ls as [|l ls IH]; cbn [rrun exclusive]; intros s H J0 E NS; [auto|]. destruct E as [V E].
    apply IH; auto; [apply RInv_step; auto| |intros q X; apply (NS q); right; exact X]. clear IH.
    assert (MONO : forall j, stat s j <> kUnused -> stat (rstep n s l) j <> kUnused).
    { intros j SJ. destruct l as [q b pid'|q sp|q]; cbn [rstep].
      - destruct (active (pcs s q)); exact SJ.
      - pose proof (ri_pc _ _ H q) as P. destruct (pcs s q); auto; cbn [pc_inv] in P;
          try (repeat match goal with |- context [if ?b then _ else _] => destruct b end; exact SJ).
        + unfold stat. cbn. destruct (Nat.eq_dec j i0) as [->|N]; [rewrite fupd_eq; exact SJ|rewrite fupd_neq by exact N; exact SJ].
        + unfold stat. cbn. destruct (Nat.eq_dec j i0) as [->|N]; [rewrite fupd_eq; exact SJ|rewrite fupd_neq by exact N; exact SJ].
        + unfold stat. cbn. destruct (Nat.eq_dec j i0) as [->|N]; [rewrite fupd_eq|rewrite fupd_neq by exact N; exact SJ].
          cbn [e_key]. rewrite key_status_of by (try apply P; reflexivity). discriminate.
        + destruct (_ && _)%bool; [|exact SJ]. unfold stat. cbn. destruct (Nat.eq_dec j i0) as [->|N]; [rewrite fupd_eq|rewrite fupd_neq by exact N; exact SJ].
          cbn [e_key]. rewrite key_status_of by (try apply P; reflexivity). discriminate.
        + unfold stat. cbn. destruct (Nat.eq_dec j i0) as [->|N]; [rewrite fupd_eq; exact SJ|rewrite fupd_neq by exact N; exact SJ].
        + unfold stat. cbn. destruct (Nat.eq_dec j i0) as [->|N]; [rewrite fupd_eq|rewrite fupd_neq by exact N; exact SJ].
          cbn [e_key]. rewrite key_status_of by (try apply P; reflexivity). discriminate.
      - exact SJ. }
    intros q. destruct (pcs (rstep n s l) q) eqn:PQ; auto.
    - (* RFree *)
      intros j LJ LN. assert (OLD : pcs s q = pcs (rstep n s l) q \/ exists sp, l = RStep q sp).
      { destruct l as [x b pid'|x sp|x]; cbn [rstep] in *.
        - destruct (active (pcs s x)); auto. cbn in *. destruct (Nat.eq_dec q x) as [->|N]; [rewrite fupd_eq in PQ; discriminate|left; rewrite fupd_neq by exact N; reflexivity].
        - destruct (Nat.eq_dec q x) as [->|N]; [eauto|left]. destruct (pcs s x); auto; repeat match goal with |- context [if ?b then _ else _] => destruct b end; cbn; rewrite fupd_neq by exact N; reflexivity.
        - cbn in *. destruct (Nat.eq_dec q x) as [->|N]; [rewrite fupd_eq in PQ; discriminate|left; rewrite fupd_neq by exact N; reflexivity]. }
      pose proof (J0 q) as JQ. destruct OLD as [O|[sp ->]]; [rewrite O, PQ in JQ; apply MONO; auto|].
      assert (sp = false) as -> by (destruct sp; auto; destruct (NS q); left; reflexivity).
      cbn [rstep] in PQ, MONO |- *. pose proof (ri_pc _ _ H q) as P.
      destruct (pcs s q) as [|b pid' g' k|b pid' g' k|b pid' g' k old|b pid' g' k|b pid' g' k|b pid' g' rr k|b pid' g' rr k ky|b pid' g' k|b pid' g' k|b pid' g' res|] eqn:PC; try (rewrite PC in PQ; discriminate PQ);
        try (repeat match type of PQ with context [if ?b then _ else _] => destruct b end; cbn in PQ; rewrite fupd_eq in PQ; discriminate PQ).
      + apply MONO. destruct (Nat.ltb_spec k n).
        * repeat match type of PQ with context [if ?b then _ else _] => destruct b end; cbn in PQ; rewrite fupd_eq in PQ; discriminate PQ.
        * cbn in PQ. rewrite fupd_eq in PQ. injection PQ as <- <- <- <- <-. lia.
      + apply MONO. destruct (Nat.ltb_spec k n).
        * fold (stat s k) in PQ. destruct (N.eqb_spec (stat s k) kUnused); cbn in PQ; rewrite fupd_eq in PQ; [discriminate|]. injection PQ as <- <- <- <- <-.
          destruct (Nat.eq_dec j k) as [->|]; [assumption|apply JQ; lia].
        * destruct (_ <? _)%nat; cbn in PQ; rewrite fupd_eq in PQ; [injection PQ as <- <- <- <- <-; lia|discriminate].
      + cbn [pc_inv] in P. destruct P as (A & L & GG & -> & M). destruct (N.eqb_spec (e_key (ents s k)) 0) as [Z|Z]; cbn [andb negb] in PQ, MONO |- *.
        * cbn in PQ. rewrite fupd_eq in PQ. discriminate.
        * cbn in PQ. rewrite fupd_eq in PQ. injection PQ as <- <- <- <- <-. apply MONO.
          destruct (Nat.eq_dec j k) as [->|]; [|apply JQ; lia]. destruct (key_cases n s k H) as (_ & _ & [[_ Y]|[Y|Y]]); [congruence|rewrite Y; discriminate|rewrite Y; discriminate].
    - (* RCas *)
      intros j LJ LN. assert (OLD : pcs s q = pcs (rstep n s l) q \/ exists sp, l = RStep q sp).
      { destruct l as [x b pid'|x sp|x]; cbn [rstep] in *.
        - destruct (active (pcs s x)); auto. cbn in *. destruct (Nat.eq_dec q x) as [->|N]; [rewrite fupd_eq in PQ; discriminate|left; rewrite fupd_neq by exact N; reflexivity].
        - destruct (Nat.eq_dec q x) as [->|N]; [eauto|left]. destruct (pcs s x); auto; repeat match goal with |- context [if ?b then _ else _] => destruct b end; cbn; rewrite fupd_neq by exact N; reflexivity.
        - cbn in *. destruct (Nat.eq_dec q x) as [->|N]; [rewrite fupd_eq in PQ; discriminate|left; rewrite fupd_neq by exact N; reflexivity]. }
      pose proof (J0 q) as JQ. apply MONO. destruct OLD as [O|[sp ->]]; [rewrite O, PQ in JQ; auto|].
      cbn [rstep] in PQ.
      destruct (pcs s q) as [|b pid' g' k0|b pid' g' k0|b pid' g' k0 old|b pid' g' k0|b pid' g' k0|b pid' g' rr k0|b pid' g' rr k0 ky|b pid' g' k0|b pid' g' k0|b pid' g' res|] eqn:PC; try (rewrite PC in PQ; discriminate PQ);
        try (repeat match type of PQ with context [if ?b then _ else _] => destruct b end; cbn in PQ; rewrite fupd_eq in PQ; discriminate PQ).
      destruct (Nat.ltb_spec k0 n).
      * destruct (_ =? _); cbn in PQ; rewrite fupd_eq in PQ; [|discriminate]. injection PQ as <- <- <- <- <- <-. apply JQ; lia.
      * destruct (_ <? _)%nat; cbn in PQ; rewrite fupd_eq in PQ; discriminate.
    - (* RDone *)
      destruct res as [r|]; auto. intros j LN. assert (OLD : pcs s q = pcs (rstep n s l) q \/ exists sp, l = RStep q sp).
      { destruct l as [x b pid'|x sp|x]; cbn [rstep] in *.
        - destruct (active (pcs s x)); auto. cbn in *. destruct (Nat.eq_dec q x) as [->|N]; [rewrite fupd_eq in PQ; discriminate|left; rewrite fupd_neq by exact N; reflexivity].
        - destruct (Nat.eq_dec q x) as [->|N]; [eauto|left]. destruct (pcs s x); auto; repeat match goal with |- context [if ?b then _ else _] => destruct b end; cbn; rewrite fupd_neq by exact N; reflexivity.
        - cbn in *. destruct (Nat.eq_dec q x) as [->|N]; [rewrite fupd_eq in PQ; discriminate|left; rewrite fupd_neq by exact N; reflexivity]. }
      pose proof (J0 q) as JQ. apply MONO. destruct OLD as [O|[sp ->]]; [rewrite O, PQ in JQ; auto|].
      cbn [rstep] in PQ.
      destruct (pcs s q) as [|b pid' g' k0|b pid' g' k0|b pid' g' k0 old|b pid' g' k0|b pid' g' k0|b pid' g' rr k0|b pid' g' rr k0 ky|b pid' g' k0|b pid' g' k0|b pid' g' res|] eqn:PC;
        try (repeat match type of PQ with context [if ?b then _ else _] => destruct b end; cbn in PQ; rewrite fupd_eq in PQ; discriminate PQ).
      + rewrite PC in PQ. discriminate.
      + destruct (Nat.ltb_spec k0 n).
        * destruct (_ =? _); cbn in PQ; rewrite fupd_eq in PQ; discriminate.
        * apply JQ; lia.
      + rewrite PC in PQ. injection PQ as -> -> -> ->. apply JQ. exact LN.
      + rewrite PC in PQ. discriminate. }
  destruct G as [_ G]. intros D L. specialize (G p). rewrite D in G. auto.
Qed.

(** With spurious failures a registration may fail although an entry is free. *)
Theorem C23_fails_only_if_full_refuted : exists ls p, exclusive 1 rinit ls /\
  pcs (rrun 1 rinit ls) p = RDone 5 77 None None /\ stat (rrun 1 rinit ls) 0 = kUnused.
Proof.
  exists ([RStart 0 5 77; RStep 0 false; RStep 0 false] ++ concat (repeat [RStep 0 false; RStep 0 true; RStep 0 false] 50)), 0%nat.
  split; [|vm_compute; split; reflexivity]. cbn [exclusive app]. split; [split; [reflexivity|intros q _; discriminate]|].
  split; [exact I|]. split; [exact I|]. generalize (rstep 1 (rstep 1 (rstep 1 rinit (RStart 0 5 77)) (RStep 0 false)) (RStep 0 false)). generalize 50%nat. intros m. induction m as [|m IH]; intros s; cbn; auto.
Qed.

(** Two processes with the same application id registering at the same time get two entries. *)
Theorem C23_shared_application_id_refuted : exists ls, let s := rrun 2 rinit ls in
  (exists i j, i <> j /\ (i < 2)%nat /\ (j < 2)%nat /\ stat s i = kUsed /\ stat s j = kUsed /\ appo s i = appo s j).
Proof.
  exists ([RStart 0 5 70; RStart 1 5 71] ++ repeat (RStep 0 false) 3 ++ repeat (RStep 1 false) 3 ++ repeat (RStep 0 false) 4 ++ repeat (RStep 1 false) 8).
  exists 0%nat, 1%nat. vm_compute. repeat split; auto; discriminate.
Qed.

(** Application 5 registers, another application too, 5 crashes in the middle of a second registration
    and a third one takes over. *)
Definition c23_run : list rlabel :=
  [RStart 0 5 70] ++ repeat (RStep 0 false) 2 ++ [RStart 1 9 80] ++ repeat (RStep 1 false) 3 ++ repeat (RStep 0 false) 7 ++
  repeat (RStep 1 false) 8 ++ [RStart 2 5 71] ++ repeat (RStep 2 false) 3 ++ [RCrash 2; RStart 3 5 72] ++ repeat (RStep 3 false) 3.
Example C23_example : exclusive 3 rinit c23_run /\ no_spurious c23_run /\
  let s := rrun 3 rinit c23_run in
  registered 3 s 5 = Some 72%Z /\ registered 3 s 9 = Some 80%Z /\
  pcs s 3 = RDone 5 72 (Some 71%Z) (Some 71%Z) /\ pcs s 1 = RDone 9 80 None (Some 80%Z).
Proof.
  split; [|split; [intros p X; vm_compute in X; repeat (destruct X as [X|X]; [discriminate|]); exact X|vm_compute; repeat split]].
  unfold c23_run. cbn [app repeat exclusive].
  repeat match goal with
  | |- True /\ _ => split; [exact I|]
  | |- (is_app _ /\ _) /\ _ => split; [split; [reflexivity|intros [|[|[|[|q]]]] Q; try lia; vm_compute; discriminate]|]
  | |- True => exact I
  end.
Qed.

Print Assumptions C23_key_round_trip.
Print Assumptions C23_one_entry_per_application.
Print Assumptions C23_returns_previous.
Print Assumptions C23_others_unaffected.
Print Assumptions C23_fails_only_if_full_partial.
