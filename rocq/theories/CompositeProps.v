(** C10, C11, C56, C57: events that serve ASIL-B and QM consumers. *)
From Verif Require Import CompositeModel SlotWord CompositeProofs CompositeAgree.
Ltac Zify.zify_post_hook ::= idtac.

(** * Specification vocabulary *)

(** number of publications in a schedule *)
Definition sends_of (ls : list clabel) : N := csends ls.
(** state after a schedule, starting with freshly created memory *)
Definition after (ns nr : nat) (ls : list clabel) : cst := crun ns nr cinit ls.
(** actions of the QM side: well-behaved or arbitrary writes into its control memory *)
Definition is_qm_action (l : clabel) : bool :=
  match l with KQRef _ | KQUnref _ | KQmWrite _ _ => true | _ => false end.
(** what anybody but the QM side can observe *)
Definition same_for_b (s s' : cst) : Prop :=
  cb s = cb s' /\ cdata s = cdata s' /\ ccur s = ccur s' /\ cpc s = cpc s' /\ cown s = cown s' /\
  ignore s = ignore s' /\ term s = term s' /\ bref s = bref s' /\ pubv s = pubv s'.
Definition is_restart (l : clabel) : bool := match l with KRestart => true | _ => false end.

Section Props.
Variables (ns nr : nat).
Hypothesis Hnr : (N.of_nat nr < two32 - 1)%N.

(** C11, first half: no ASIL-B slot being read is handed out or overwritten,
    whatever the QM side does. *)
Theorem C11_read_samples_stable ls l i :
  (sends_of ls < two32 - 1)%N ->
  0 < bref (after ns nr ls) i ->
  cown (after ns nr ls) i = false /\
  cdata (after ns nr ls) i = pubv (after ns nr ls) i /\
  cdata (cstep ns nr (after ns nr ls) l) i = cdata (after ns nr ls) i.
Proof.
  intros Hs Hb. pose proof (IB_reach ns nr Hnr ls Hs) as (HS & _ & _).
  fold (after ns nr ls) in HS. set (s := after ns nr ls) in *.
  destruct (HS i) as [(_ & _ & A)|[(_ & _ & A)|(A & _ & B & _)]]; [lia|lia|].
  split; [exact A|split; [exact B|]].
  destruct l; cbn [cstep]; try (destruct (term s); [reflexivity|]).
  - destruct (idle s); reflexivity.
  - destruct (idle s); cbn [andb]; [|reflexivity]. destruct (cown s i0) eqn:E; [|reflexivity].
    cbn. rewrite fupd_neq; [reflexivity|]. intros ->. congruence.
  - destruct (idle s && cown s i0); reflexivity.
  - destruct (idle s && cown s i0); reflexivity.
  - unfold gstep, next_multi, next_single. destruct (cpc s); try reflexivity;
      repeat match goal with
      | |- context [if ?c then _ else _] => destruct c
      | |- context [match ?o with Some _ => _ | None => _ end] => destruct o as [[? ?]|]
      end; reflexivity.
  - reflexivity.
  - destruct (cpc s); reflexivity.
  - destruct (_ && _); reflexivity.
  - destruct (qref s i0); reflexivity.
  - destruct (_ && _); reflexivity.
  - destruct (bref s i0); reflexivity.
  - reflexivity.
Qed.

(** the reference count in the ASIL-B control is the number of references held *)
Theorem C11_reference_count_exact ls i :
  (sends_of ls < two32 - 1)%N ->
  is_in_writing (cb (after ns nr ls) i) = false ->
  rc_of (cb (after ns nr ls) i) = N.of_nat (bref (after ns nr ls) i).
Proof.
  intros Hs Hw. pose proof (IB_reach ns nr Hnr ls Hs) as (HS & _ & _).
  fold (after ns nr ls) in HS. set (s := after ns nr ls) in *.
  destruct (HS i) as [(_ & A & _)|[(_ & A & B)|(A & L & B & t & Ht & C)]].
  - rewrite A in Hw; discriminate Hw.
  - rewrite A, B. reflexivity.
  - rewrite C. apply rc_word. lia.
Qed.

(** C11, second half: once the QM side was disconnected, everything the provider
    and the ASIL-B side do is independent of what the QM side does. *)
Definition b_only (s : cst) : Prop :=
  match cpc s with
  | GIdle | GReadyB _ _ | GDiscB _ | GDiscBSt _ | GBScan _ _ _ | GBCas _ _ _ | GDead => True
  | _ => False
  end.

Lemma step_same s1 s2 l :
  ignore s1 = true -> b_only s1 -> is_restart l = false -> is_qm_action l = false -> same_for_b s1 s2 ->
  same_for_b (cstep ns nr s1 l) (cstep ns nr s2 l) /\ ignore (cstep ns nr s1 l) = true /\ b_only (cstep ns nr s1 l).
Proof.
  destruct s1 as [q1 b1 d1 c1 p1 o1 g1 t1 qr1 br1 pv1], s2 as [q2 b2 d2 c2 p2 o2 g2 t2 qr2 br2 pv2].
  unfold same_for_b, b_only. cbn [qm cb cdata ccur cpc cown ignore term qref bref pubv].
  intros -> HB HR HQ (<- & <- & <- & <- & <- & <- & <- & <- & <-).
  destruct l; try discriminate HR; try discriminate HQ; cbn [cstep term];
    unfold idle, gstep, next_single; cbn [cpc cb ignore cown bref].
  all: destruct t1; try (repeat split; auto; fail).
  all: destruct p1; try destruct HB; cbn [andb].
  all: repeat match goal with
      | |- context [if ?c then _ else _] => destruct c
      | |- context [match ?o with Some _ => _ | None => _ end] => destruct o as [[? ?]|]
      | |- context [match ?x with O => _ | S _ => _ end] => destruct x
      end; cbn; repeat split; auto.
Qed.

Lemma qm_same s1 s2 l :
  is_qm_action l = true -> same_for_b s1 s2 ->
  same_for_b (cstep ns nr s1 l) s2 /\ ignore (cstep ns nr s1 l) = ignore s1 /\ cpc (cstep ns nr s1 l) = cpc s1.
Proof.
  destruct l; try discriminate; intros _ H; cbn [cstep].
  - destruct (_ && _); split; auto.
  - destruct (qref s1 i); split; auto.
  - split; auto.
Qed.

Theorem C11_disconnected_independent_of_qm : forall ls s,
  ignore s = true -> b_only s -> existsb is_restart ls = false ->
  same_for_b (crun ns nr s ls) (crun ns nr s (filter (fun l => negb (is_qm_action l)) ls)).
Proof.
  assert (G : forall ls s1 s2, ignore s1 = true -> b_only s1 -> existsb is_restart ls = false -> same_for_b s1 s2 ->
     same_for_b (crun ns nr s1 ls) (crun ns nr s2 (filter (fun l => negb (is_qm_action l)) ls))).
  { induction ls as [|l ls IH]; intros s1 s2 HG HB HR HE; [exact HE|].
    cbn [existsb] in HR. apply orb_false_iff in HR as [HR1 HR2].
    cbn [filter]. destruct (is_qm_action l) eqn:EQ; cbn [negb crun fold_left].
    - destruct (qm_same s1 s2 l EQ HE) as (A & B & C). apply IH; auto; [congruence|].
      unfold b_only in *. rewrite C. exact HB.
    - destruct (step_same s1 s2 l HG HB HR1 EQ HE) as (A & B & C). apply IH; auto. }
  intros ls s HG HB HR. apply G; auto. repeat split; reflexivity.
Qed.

(** the hypothesis is met whenever QM is disconnected and no restart has happened
    since: this is the state right after the detection (GBScan) *)
Lemma after_detection s cnt : ignore (next_multi s cnt) = true -> ignore s = false -> b_only (next_multi s cnt).
Proof. unfold next_multi. destruct (S cnt <? MAX_MULTI); cbn; [congruence|auto]. Qed.

(** C10: with well-behaved QM consumers and crashes outside the windows in which
    only one of the two controls has been updated, the provider is never
    terminated by its own assertions, across any number of restarts. *)
Theorem C10_restart_never_terminates_partial ls :
  (sends_of ls < two32 - 1)%N ->
  undisturbed_run ns nr cinit ls ->
  term (after ns nr ls) = false.
Proof. intros Hs HU. exact (proj1 (IW_reach ns nr Hnr ls Hs HU)). Qed.

(** … and whenever no provider call is running and QM is connected, both qualities
    show the same samples. *)
Theorem C10_qualities_agree_partial ls i :
  (sends_of ls < two32 - 1)%N ->
  undisturbed_run ns nr cinit ls ->
  let s := after ns nr ls in
  idle s = true -> ignore s = false -> i < ns ->
  ts_of (qm s i) = ts_of (cb s i) /\ is_in_writing (qm s i) = is_in_writing (cb s i) /\
  is_invalid (qm s i) = is_invalid (cb s i) /\
  (is_in_writing (qm s i) = false -> rc_of (qm s i) = N.of_nat (qref s i)).
Proof.
  intros Hs HU s HI HG Hi. pose proof (IW_reach ns nr Hnr ls Hs HU) as (_ & HQ & HW).
  pose proof (IB_reach ns nr Hnr ls Hs) as (HS & _ & _).
  fold (after ns nr ls) in HQ, HW, HS. fold s in HQ, HW, HS. rewrite HG in HW. apply idle_true in HI.
  unfold wpc in HW. rewrite HI in HW. specialize (HW i Hi). specialize (HQ i Hi).
  assert (BR : (N.of_nat (bref s i) < two32)%N).
  { destruct (HS i) as [(_ & _ & A)|[(_ & _ & A)|(_ & A & _)]]; rewrite ?A; try lia; unfold two32; lia. }
  destruct HW as [(A & B & C)|[(A & B & C)|(t & Ht & A & B)]]; rewrite A, B.
  - repeat split; auto. intros X; discriminate X.
  - rewrite C. repeat split; auto.
  - rewrite !ts_word by lia. rewrite !word_not_writing by lia. rewrite !word_not_invalid by lia.
    repeat split; auto. intros _. apply rc_word; lia.
Qed.

(** C56, as far as it holds: while QM is connected and undisturbed, a sample that a
    QM consumer references is not handed out and not overwritten. *)
Theorem C56_qm_sample_stable_while_connected_partial ls l i :
  (sends_of ls < two32 - 1)%N ->
  undisturbed_run ns nr cinit ls ->
  let s := after ns nr ls in
  ignore s = false -> i < ns -> 0 < qref s i ->
  cdata (cstep ns nr s l) i = cdata s i.
Proof.
  intros Hs HU s HG Hi Hq. pose proof (IW_reach ns nr Hnr ls Hs HU) as (_ & HQ & HW).
  pose proof (IB_reach ns nr Hnr ls Hs) as (HS & _ & _).
  fold (after ns nr ls) in HQ, HW, HS. fold s in HQ, HW, HS. rewrite HG in HW.
  destruct l; cbn [cstep]; try (destruct (term s); [reflexivity|]).
  - destruct (idle s); reflexivity.
  - destruct (idle s) eqn:EI; cbn [andb]; [|reflexivity]. destruct (cown s i0) eqn:E; [|reflexivity].
    cbn. rewrite fupd_neq; [reflexivity|]. intros <-.
    apply idle_true in EI. unfold wpc in HW. rewrite EI in HW.
    destruct (HS i) as [(_ & A & R)|[(A & _)|(A & _)]]; try congruence.
    destruct (HW i Hi) as [(_ & _ & B)|[(_ & _ & B)|(t & Ht & _ & B)]]; try lia.
    rewrite A, R in B. apply (wnw t 0); [lia|unfold two32; lia|auto].
  - destruct (idle s && cown s i0); reflexivity.
  - destruct (idle s && cown s i0); reflexivity.
  - unfold gstep, next_multi, next_single. destruct (cpc s); try reflexivity;
      repeat match goal with
      | |- context [if ?c then _ else _] => destruct c
      | |- context [match ?o with Some _ => _ | None => _ end] => destruct o as [[? ?]|]
      end; reflexivity.
  - reflexivity.
  - destruct (cpc s); reflexivity.
  - destruct (_ && _); reflexivity.
  - destruct (qref s i0); reflexivity.
  - destruct (_ && _); reflexivity.
  - destruct (bref s i0); reflexivity.
  - reflexivity.
Qed.

(** C11, progress: if some slot is unused in the ASIL-B control when Allocate is
    called, then Allocate returns a slot after a bounded number of provider steps,
    whatever the QM side writes meanwhile — unless the provider is terminated by
    its assertion (C57). The bound depends on the number of slots only. *)
Definition b_free (s : cst) (i : nat) : Prop :=
  i < ns /\ (cb s i = INVALID_EVENT \/ (rc_of (cb s i) = 0%N /\ cb s i <> IN_WRITING /\ (ts_of (cb s i) < TIMESTAMP_MAX)%N)).
Definition provider_or_qm (l : clabel) : bool := match l with KStep => true | _ => is_qm_action l end.
Definition steps_in (ls : list clabel) : nat := length (filter (fun l => match l with KStep => true | _ => false end) ls).

Definition best_real (s : cst) (best : option (nat * N)) : Prop :=
  match best with None => True | Some (j, v) => cb s j = v /\ cown s j = false /\ j < ns end.
Definition AL (s0 s : cst) (f : nat) : Prop :=
  cb s = cb s0 /\ cown s = cown s0 /\ term s = false /\
  match cpc s with
  | GScanB _ i _ _ => i < ns
  | GScanQm _ _ _ | GCasQm _ _ _ | GRestore _ _ _ => True
  | GCasB _ j v => unused_word v
  | GBScan _ i best => best_real s best /\ (f < i -> best <> None)
  | GBCas _ j v => cb s j = v /\ cown s j = false
  | _ => False
  end.
Definition got (s0 s : cst) : Prop :=
  cpc s = GIdle /\ exists j, cown s0 j = false /\ cown s = fupd (cown s0) j true.

Definition meas (s : cst) : nat :=
  let bph := ns + 3 in
  match cpc s with
  | GScanQm cnt i _ => (MAX_MULTI - cnt) * (2 * ns + 5) + 2 * (ns - i) + 4 + bph
  | GScanB cnt i _ _ => (MAX_MULTI - cnt) * (2 * ns + 5) + 2 * (ns - i) + 3 + bph
  | GCasQm cnt _ _ => (MAX_MULTI - cnt) * (2 * ns + 5) + 3 + bph
  | GCasB cnt _ _ => (MAX_MULTI - cnt) * (2 * ns + 5) + 2 + bph
  | GRestore cnt _ _ => (MAX_MULTI - cnt) * (2 * ns + 5) + 1 + bph
  | GBScan _ i _ => (ns - i) + 2
  | GBCas _ _ _ => 1
  | _ => 0
  end.
Definition alloc_bound : nat := MAX_MULTI * (2 * ns + 5) + 2 * ns + 5 + (ns + 3).

Lemma meas_next_multi s cnt :
  meas (next_multi s cnt) < (MAX_MULTI - cnt) * (2 * ns + 5) + 1 + (ns + 3).
Proof.
  unfold next_multi. destruct (Nat.ltb_spec (S cnt) MAX_MULTI) as [H|H]; unfold meas; cbn [cpc c_pc].
  - replace (MAX_MULTI - cnt) with (S (MAX_MULTI - S cnt)) by lia. rewrite Nat.mul_succ_l.
    generalize ((MAX_MULTI - S cnt) * (2 * ns + 5)). intros. lia.
  - generalize ((MAX_MULTI - cnt) * (2 * ns + 5)). intros. lia.
Qed.

Lemma AL_next_multi s0 s cnt f :
  cb s = cb s0 -> cown s = cown s0 -> term s = false -> AL s0 (next_multi s cnt) f.
Proof.
  intros A B C. unfold next_multi. destruct (S cnt <? MAX_MULTI); repeat split; auto. intros; lia.
Qed.

Lemma AL_step n s0 s f :
  (n < two32 - 1)%N -> IB nr n s -> b_free s0 f -> AL s0 s f ->
  let s' := gstep ns s in
  (AL s0 s' f /\ meas s' < meas s) \/ got s0 s' \/ term s' = true.
Proof.
  intros Hn HB HF (HC & HO & HT & HP). cbv zeta. pose proof HB as (HS & _ & _).
  assert (FREE : forall j, unused_word (cb s j) -> cown s j = false).
  { intros j [_ Hu]. destruct (HS j) as [(_ & A & _)|[(A & _)|(A & _)]]; auto. congruence. }
  unfold gstep. revert HP. unfold meas at 2. case_eq (cpc s); try (intros; contradiction).
  - intros cnt i best Hpc _. left. destruct (Nat.ltb_spec i ns) as [Hi|Hi].
    + split; [repeat split; auto|]. unfold meas; cbn [cpc c_pc]. lia.
    + destruct best as [[j v]|].
      * split; [repeat split; auto|]. unfold meas; cbn [cpc c_pc]. lia.
      * split; [apply AL_next_multi; auto|]. pose proof (meas_next_multi s cnt). lia.
  - intros cnt i vq best Hpc Hi. cbv zeta.
    destruct (is_invalid (cb s i) && negb (is_invalid vq)).
    { left. split; [apply AL_next_multi; auto|]. pose proof (meas_next_multi s cnt). lia. }
    destruct (negb (is_used vq) && negb (is_used (cb s i)) && (ts_of (cb s i) <? best_ts best)%N).
    + destruct (vq =? cb s i)%N; [|right; right; reflexivity].
      left. split; [repeat split; auto|]. unfold meas; cbn [cpc c_pc]. lia.
    + left. split; [repeat split; auto|]. unfold meas; cbn [cpc c_pc]. lia.
  - intros cnt i v Hpc _. left. destruct (qm s i =? v)%N.
    + split; [|unfold meas; cbn [cpc c_pc]; lia].
      pose proof HB as (_ & _ & HP). unfold bpc in HP. rewrite Hpc in HP. repeat split; auto; apply HP.
    + split; [apply AL_next_multi; auto|]. pose proof (meas_next_multi s cnt). lia.
  - intros cnt i v Hpc HU. destruct (cb s i =? v)%N eqn:E.
    + right; left. split; [reflexivity|]. exists i. apply N.eqb_eq in E. subst v.
      split; [rewrite <- HO; apply FREE, HU|]. cbn. rewrite HO. reflexivity.
    + left. split; [repeat split; auto|]. unfold meas; cbn [cpc c_pc]; lia.
  - intros cnt i v Hpc _. left. split; [apply AL_next_multi; auto|].
    pose proof (meas_next_multi (c_qm s (fupd (qm s) i v)) cnt). lia.
  - intros r i best Hpc (HR & HN). destruct (Nat.ltb_spec i ns) as [Hi|Hi].
    + cbv zeta. destruct (is_invalid (cb s i)) eqn:E.
      * left. split; [|unfold meas; cbn [cpc c_pc]; lia].
        unfold AL. cbn [cb cown term cpc c_pc]. repeat split; auto.
        apply FREE. apply unused_invalid, E.
      * left. split; [|unfold meas; cbn [cpc c_pc]; lia].
        unfold AL. cbn [cb cown term cpc c_pc]. split; [auto|]. split; [auto|]. split; [auto|].
        unfold scan_oldest. split.
        -- destruct (rc_of (cb s i) =? 0)%N eqn:E1; cbn [andb]; [|exact HR].
           destruct (is_in_writing (cb s i)) eqn:E2; cbn [negb andb]; [exact HR|].
           destruct (ts_of (cb s i) <? best_ts best)%N; [|exact HR].
           repeat split; auto. apply FREE. split; [apply N.eqb_eq, E1|]. intros X; rewrite X in E2; discriminate E2.
        -- intros Hlt. destruct (Nat.eq_dec f i) as [->|Hne].
           ++ destruct HF as [_ [HF|(HF1 & HF2 & HF3)]].
              { rewrite HC, HF in E. discriminate E. }
              destruct (rc_of (cb s i) =? 0)%N eqn:E1; [|rewrite HC, HF1 in E1; discriminate E1].
              destruct (is_in_writing (cb s i)) eqn:E2; [apply is_in_writing_true in E2; rewrite HC in E2; congruence|].
              cbn [negb andb]. destruct best as [[bj bv]|]; [destruct (_ <? _)%N; discriminate|].
              cbn [best_ts]. rewrite HC. apply N.ltb_lt in HF3. rewrite HF3. discriminate.
           ++ specialize (HN ltac:(lia)). destruct (_ && _ && _); [discriminate|exact HN].
    + destruct best as [[j v]|].
      * left. split; [|unfold meas; cbn [cpc c_pc]; lia].
        destruct HR as (R1 & R2 & R3). repeat split; auto.
      * exfalso. destruct HF as [HF _]. apply HN; [lia|reflexivity].
  - intros r i v Hpc (HV & HW). rewrite HV, N.eqb_refl. right; left. split; [reflexivity|].
    exists i. rewrite <- HO. auto.
Qed.

Lemma AL_qm s0 s f l : is_qm_action l = true -> AL s0 s f ->
  AL s0 (cstep ns nr s l) f /\ meas (cstep ns nr s l) = meas s.
Proof.
  intros HQ HA. destruct l; try discriminate HQ; cbn [cstep].
  - destruct (_ && _); split; auto.
  - destruct (qref s i); split; auto.
  - split; auto.
Qed.

Lemma csends_provider ls : forallb provider_or_qm ls = true -> csends ls = 0%N.
Proof.
  induction ls as [|l ls IH]; [reflexivity|]. cbn [forallb csends fold_right].
  rewrite andb_true_iff. intros [A B]. fold (csends ls). rewrite IH by exact B.
  destruct l; try discriminate A; reflexivity.
Qed.

Lemma AL_run s0 f n : (n < two32 - 1)%N -> b_free s0 f -> forall ls s,
  IB nr n s -> AL s0 s f -> forallb provider_or_qm ls = true -> meas s < steps_in ls ->
  exists p q, ls = p ++ q /\ (got s0 (crun ns nr s p) \/ term (crun ns nr s p) = true).
Proof.
  intros Hn HF. induction ls as [|l ls IH]; intros s HB HA HL HM; [cbn in HM; lia|].
  cbn [forallb] in HL. apply andb_true_iff in HL as [HL1 HL2].
  assert (HB' : IB nr n (cstep ns nr s l)).
  { assert (is_send l = 0%N) as E by (destruct l; try discriminate HL1; reflexivity).
    pose proof (IB_step ns nr Hnr n s l) as X. rewrite E, N.add_0_r in X. auto. }
  destruct (is_qm_action l) eqn:EQ.
  - destruct (AL_qm s0 s f l EQ HA) as [A M].
    assert (steps_in (l :: ls) = steps_in ls) as ES by (destruct l; try discriminate EQ; reflexivity).
    rewrite ES, <- M in HM. destruct (IH _ HB' A HL2 HM) as (p & q & E & G).
    exists (l :: p), q. split; [rewrite E; reflexivity|exact G].
  - assert (l = KStep) as -> by (destruct l; try discriminate HL1; try discriminate EQ; reflexivity).
    pose proof (AL_step n s0 s f Hn HB HF HA) as X. cbv zeta in X.
    assert (HT : term s = false) by apply HA.
    assert (EX : cstep ns nr s KStep = gstep ns s) by (cbn [cstep]; rewrite HT; reflexivity).
    change (steps_in (KStep :: ls)) with (S (steps_in ls)) in HM. rewrite EX in HB'.
    destruct X as [[A M]|X].
    + destruct (IH _ HB' A HL2 ltac:(lia)) as (p & q & E & G).
      exists (KStep :: p), q. split; [rewrite E; reflexivity|]. cbn [crun fold_left]. rewrite EX. exact G.
    + exists [KStep], ls. split; [reflexivity|]. cbn [crun fold_left]. rewrite EX. exact X.
Qed.

Theorem C11_allocation_returns_slot ls0 ls f :
  (sends_of ls0 < two32 - 1)%N ->
  let s0 := after ns nr ls0 in
  idle s0 = true -> term s0 = false -> b_free s0 f ->
  forallb provider_or_qm ls = true -> alloc_bound < steps_in ls ->
  exists p q, ls = p ++ q /\
    (got s0 (crun ns nr s0 (KAlloc :: p)) \/ term (crun ns nr s0 (KAlloc :: p)) = true).
Proof.
  intros Hs s0 HI HT HF HL HM. pose proof (IB_reach ns nr Hnr ls0 Hs) as HB.
  fold (after ns nr ls0) in HB. fold s0 in HB.
  assert (E : cstep ns nr s0 KAlloc = c_pc s0 (if ignore s0 then GBScan 0 0 None else GScanQm 0 0 None)).
  { cbn [cstep]. rewrite HT, HI. reflexivity. }
  assert (HB' : IB nr (csends ls0) (cstep ns nr s0 KAlloc)).
  { pose proof (IB_step ns nr Hnr (csends ls0) s0 KAlloc) as X. cbn [is_send] in X. rewrite N.add_0_r in X. auto. }
  destruct (AL_run s0 f (csends ls0) Hs HF ls (cstep ns nr s0 KAlloc) HB') as (p & q & X & G); auto.
  - rewrite E. unfold AL. cbn [cb cown term cpc c_pc]. destruct (ignore s0); repeat split; auto. intros; lia.
  - rewrite E. unfold alloc_bound in HM. unfold meas. cbn [cpc c_pc]. destruct (ignore s0); lia.
  - exists p, q. split; [exact X|exact G].
Qed.
End Props.

(** * Counterexamples and non-vacuity *)
Fixpoint kn (n : nat) : list clabel := match n with O => [] | S k => KStep :: kn k end.
(** C10 is false of the code as it stands: a crash between the two stores of a
    publication leaves the ASIL-B slot published and the QM slot in writing; the
    restart clears the latter only, and the next allocations run into the
    assertion [qm == asil_b]. *)
Theorem C10_restart_refuted :
  exists ls, (sends_of ls < two32 - 1)%N /\ forallb (fun l => negb (is_qm_action l)) ls = true /\
    term (after 1 3 ls) = true.
Proof. exists (KAlloc :: kn 5 ++ [KWrite 0 7%N; KSend 0; KStep; KCrash; KRestart] ++ kn 8 ++ KAlloc :: kn 2). vm_compute. auto. Qed.

(** the same after a crash between the two compare-exchanges of an allocation *)
Theorem C10_restart_refuted_allocation :
  exists ls, (sends_of ls < two32 - 1)%N /\ forallb (fun l => negb (is_qm_action l)) ls = true /\
    term (after 1 3 ls) = true.
Proof.
  exists (KAlloc :: kn 5 ++ [KWrite 0 7%N; KSend 0] ++ kn 4 ++ KAlloc :: kn 4 ++ [KCrash; KRestart] ++ kn 8 ++ KAlloc :: kn 3).
  vm_compute. auto.
Qed.

(** … and after an orderly re-offer that follows a disconnection of QM consumers
    (all slots of the event are used by ASIL-B consumers once) *)
Definition disconnect_reoffer : list clabel :=
  KAlloc :: kn 5 ++ [KWrite 0 7%N; KSend 0] ++ kn 4 ++ [KBRef 0; KAlloc] ++ kn 1000 ++
  [KBUnref 0; KAlloc] ++ kn 10 ++ [KSend 0] ++ kn 5 ++ [KCrash; KRestart] ++ kn 10 ++ KAlloc :: kn 10.
Theorem C10_reoffer_after_disconnect_refuted :
  exists ls, (sends_of ls < two32 - 1)%N /\ forallb (fun l => negb (is_qm_action l)) ls = true /\
    term (after 1 3 ls) = true.
Proof. exists disconnect_reoffer. vm_compute. auto. Qed.

(** C57: a QM process can terminate the ASIL-B provider: one write of a status with
    another time stamp and no readers into a QM slot is enough. *)
Theorem C57_qm_write_terminates_provider_refuted :
  exists ls, (sends_of ls < two32 - 1)%N /\ existsb (fun l => match l with KCrash => true | _ => false end) ls = false /\
    term (after 1 3 ls) = true.
Proof.
  exists (KAlloc :: kn 5 ++ [KWrite 0 7%N; KSend 0] ++ kn 4 ++ KQmWrite 0 (2 * two32)%N :: KAlloc :: kn 3).
  vm_compute. auto.
Qed.

(** C56: after the disconnection a well-behaved QM consumer's sample is overwritten
    while it is still referenced. *)
Theorem C56_qm_sample_overwritten_refuted :
  exists ls v, (sends_of ls < two32 - 1)%N /\
    forallb (fun l => match l with KQmWrite _ _ | KCrash => false | _ => true end) ls = true /\
    qref (after 1 3 ls) 0 = 1 /\ rc_of (qm (after 1 3 ls) 0) = 1%N /\
    cdata (after 1 3 ls) 0 = 7%N /\ cdata (cstep 1 3 (after 1 3 ls) (KWrite 0 v)) 0 = v /\ v <> 7%N.
Proof.
  exists (KAlloc :: kn 5 ++ [KWrite 0 7%N; KSend 0] ++ kn 4 ++ [KQRef 0; KAlloc] ++ kn 1000), 8%N.
  vm_compute. repeat split; auto; discriminate.
Qed.

(** * Non-vacuity *)
(** A schedule with misbehaving QM writes in which an ASIL-B consumer holds a sample. *)
Definition hostile : list clabel :=
  KAlloc :: kn 7 ++ [KWrite 0 7%N; KSend 0] ++ kn 4 ++ [KBRef 0; KBRef 0; KQmWrite 0 12345%N; KQmWrite 1 99999%N; KAlloc] ++ kn 3.
Example hostile_holds : (sends_of hostile < two32 - 1)%N /\ bref (after 2 3 hostile) 0 = 2 /\
  rc_of (cb (after 2 3 hostile) 0) = 2%N /\ is_in_writing (cb (after 2 3 hostile) 0) = false /\
  cdata (after 2 3 hostile) 0 = 7%N.
Proof. vm_compute. auto. Qed.

(** A disconnected state that meets the hypotheses of the independence theorem. *)
Definition cut : list clabel := KAlloc :: kn 5 ++ [KSend 0] ++ kn 4 ++ [KQRef 0; KAlloc] ++ kn 1000.
Example cut_disconnected : ignore (after 1 3 cut) = true /\ b_only (after 1 3 cut) /\ cown (after 1 3 cut) 0 = true.
Proof. vm_compute. auto. Qed.

(** An undisturbed schedule with a crash (a sample is allocated and not sent) and a
    restart, after which allocation and publication work on both controls. *)
Definition calm : list clabel :=
  KAlloc :: kn 7 ++ [KWrite 0 7%N; KSend 0] ++ kn 4 ++ [KQRef 0; KBRef 0; KAlloc] ++ kn 7 ++
  [KCrash; KRestart] ++ kn 12 ++ [KAlloc] ++ kn 7 ++ [KWrite 1 8%N; KSend 1] ++ kn 4.
Example calm_ok : undisturbed_run 2 3 cinit calm /\ (sends_of calm < two32 - 1)%N /\
  idle (after 2 3 calm) = true /\ ignore (after 2 3 calm) = false /\
  qref (after 2 3 calm) 0 = 1 /\ ts_of (qm (after 2 3 calm) 1) = 2%N.
Proof. vm_compute. repeat split. Qed.

(** hypotheses of the progress theorem: slot 1 is free, QM writes garbage *)
Definition hostile_idle : list clabel :=
  KAlloc :: kn 7 ++ [KWrite 0 7%N; KSend 0] ++ kn 4 ++ [KBRef 0; KQmWrite 1 99999%N].
Example progress_hyp : idle (after 2 3 hostile_idle) = true /\ term (after 2 3 hostile_idle) = false /\
  b_free 2 (after 2 3 hostile_idle) 1 /\ ignore (crun 2 3 (after 2 3 hostile_idle) (KAlloc :: kn 1000)) = true /\
  cown (crun 2 3 (after 2 3 hostile_idle) (KAlloc :: kn 1000)) 1 = true.
Proof.
  split; [vm_compute; reflexivity|]. split; [vm_compute; reflexivity|]. split.
  - split; [auto|]. left. vm_compute. reflexivity.
  - vm_compute. auto.
Qed.

Print Assumptions C10_restart_never_terminates_partial.
Print Assumptions C10_qualities_agree_partial.
Print Assumptions C10_restart_refuted.
Print Assumptions C11_read_samples_stable.
Print Assumptions C11_reference_count_exact.
Print Assumptions C11_disconnected_independent_of_qm.
Print Assumptions C11_allocation_returns_slot.
Print Assumptions C56_qm_sample_stable_while_connected_partial.
Print Assumptions C57_qm_write_terminates_provider_refuted.
