(** Invariant of the subscription machine (SubModel.v). *)
From Verif Require Import SubModel.
Ltac Zify.zify_post_hook ::= idtac.
Local Open Scope N_scope.

Fixpoint nsum (f : nat -> N) (n : nat) : N :=
  match n with O => 0 | Datatypes.S k => f k + nsum f k end.

Lemma nsum_ext f g n : (forall i, (i < n)%nat -> f i = g i) -> nsum f n = nsum g n.
Proof. induction n as [|n IH]; cbn [nsum]; intros H; [reflexivity|]. rewrite H by lia. rewrite IH; [reflexivity|]. intros; apply H; lia. Qed.

Lemma nsum_change f g n i : (i < n)%nat -> (forall j, (j < n)%nat -> j <> i -> g j = f j) ->
  nsum g n + f i = nsum f n + g i.
Proof.
  induction n as [|n IH]; cbn [nsum]; intros Hi H; [lia|].
  destruct (Nat.eq_dec i n) as [->|Hne].
  - rewrite (nsum_ext g f n) by (intros; apply H; lia). lia.
  - rewrite (H n) by lia. assert (IH' := IH ltac:(lia) ltac:(intros; apply H; lia)). lia.
Qed.

Lemma nsum_le_mul f g n b : (forall i, (i < n)%nat -> f i <= b * g i) -> nsum f n <= b * nsum g n.
Proof.
  induction n as [|n IH]; cbn [nsum]; intros H; [lia|].
  assert (H1 := H n ltac:(lia)). assert (IH' := IH ltac:(intros; apply H; lia)).
  rewrite N.mul_add_distr_l. lia.
Qed.

Lemma nsum_ge f n i : (i < n)%nat -> f i <= nsum f n.
Proof.
  induction n as [|n IH]; cbn [nsum]; intros Hi; [lia|].
  destruct (Nat.eq_dec i n) as [->|]; [lia|]. assert (IH' := IH ltac:(lia)). lia.
Qed.

Lemma nsum_le1 f n : (forall i, (i < n)%nat -> f i <= 1) -> nsum f n <= N.of_nat n.
Proof.
  induction n as [|n IH]; cbn [nsum]; intros H; [lia|].
  assert (H1 := H n ltac:(lia)). assert (IH' := IH ltac:(intros; apply H; lia)). lia.
Qed.

Lemma nsum_lt1 f n i : (i < n)%nat -> f i = 0 -> (forall j, (j < n)%nat -> f j <= 1) -> nsum f n < N.of_nat n.
Proof.
  intros Hi H0 H. pose proof (nsum_change f (fupd f i 1) n i Hi) as C.
  rewrite fupd_eq, H0 in C. specialize (C ltac:(intros; apply fupd_neq; assumption)).
  assert (nsum (fupd f i 1) n <= N.of_nat n); [|lia].
  apply nsum_le1. intros j Hj. destruct (Nat.eq_dec j i) as [->|Hne]; [rewrite fupd_eq; lia|rewrite fupd_neq by exact Hne; auto].
Qed.

Definition one (o : option N) : N := match o with Some _ => 1 | None => 0 end.
Definition cnt (o : option N) : N := match o with Some c => c | None => 0 end.

(** samples counted through log k *)
Definition via (s : zst) (k : nat) : option N :=
  match zown (logs s k) with Some p => held (pcs s p) | None => None end.

Section Inv.
Variables (M : nat) (S : N) (enforce : bool).
Hypothesis HM : (M <= 255)%nat.
Hypothesis HS : S < two16.

Definition total_subs (s : zst) : N := nsum (fun k => one (via s k)) M.
Definition total_slots (s : zst) : N := nsum (fun k => cnt (via s k)) M.

(** flags of the log for the program point of its owner *)
Definition bits (pc : zpc) (l : zlog) : Prop :=
  match pc with
  | ZBegin _ _ | ZRel _ => zbeg l = false /\ zend l = false
  | ZLoad _ c _ | ZCas _ c _ _ | ZCommit _ c => zbeg l = true /\ zend l = false /\ zcnt l = c
  | ZAbort _ => zbeg l = true /\ zend l = false
  | ZSub _ c | ZUBegin _ c => zbeg l = true /\ zend l = true /\ zcnt l = c
  | ZULoad _ _ _ | ZUCas _ _ _ _ | ZUCommit _ => zbeg l = false /\ zend l = true
  | ZDead _ g | ZTerm _ _ g =>
      (zbeg l = zend l -> g = if zbeg l then Some (zcnt l) else None)
  | _ => False
  end.

Definition fact (pc : zpc) : Prop :=
  match pc with
  | ZAcq _ _ c | ZBegin _ c | ZLoad _ c _ => c <= 255
  | ZCas _ c _ old => c <= 255 /\ subs_of old < N.of_nat M /\ (enforce = true -> slots_of old + c <= S)
  | ZUCas _ c _ old => subs_of old <> 0 /\ c <= slots_of old
  | ZTerm why _ _ => why = RRetry
  | _ => True
  end.

Definition loc (s : zst) (p : nat) : Prop :=
  (match klog (pcs s p) with
   | Some k => bits (pcs s p) (logs s k)
   | None => held (pcs s p) = None
   end) /\ fact (pcs s p) /\ (forall c, held (pcs s p) = Some c -> c <= 255).

Definition Inv (s : zst) : Prop :=
  ctl s = total_subs s * two16 + total_slots s /\
  (enforce = true -> total_slots s <= S) /\
  (forall k p, zown (logs s k) = Some p <-> klog (pcs s p) = Some k) /\
  (forall k p, zown (logs s k) = Some p -> (k < M)%nat) /\
  (forall k, zown (logs s k) = None -> zbeg (logs s k) = false /\ zend (logs s k) = false) /\
  (forall p, loc s p).

Lemma via_le s : (forall p, loc s p) -> forall k, cnt (via s k) <= 255 * one (via s k).
Proof.
  intros HL k. unfold via. destruct (zown (logs s k)) as [p|]; [|cbn; lia].
  destruct (held (pcs s p)) as [c|] eqn:E; [|cbn; lia].
  destruct (HL p) as (_ & _ & H). specialize (H c E). cbn. lia.
Qed.

Lemma one_le1 o : one o <= 1. Proof. destruct o; cbn; lia. Qed.

Lemma totals s : Inv s -> total_subs s <= N.of_nat M /\ total_slots s <= 255 * total_subs s.
Proof.
  intros (_ & _ & _ & _ & _ & HL). split.
  - apply nsum_le1. intros; apply one_le1.
  - apply nsum_le_mul. intros; apply via_le, HL.
Qed.

Lemma subs_word a b : a <= 255 -> b < two16 -> subs_of (a * two16 + b) = a.
Proof.
  intros Ha Hb. unfold subs_of. rewrite N.div_add_l by discriminate.
  rewrite (N.div_small b) by exact Hb. rewrite N.add_0_r. apply N.mod_small. unfold two8. lia.
Qed.
Lemma slots_word a b : b < two16 -> slots_of (a * two16 + b) = b.
Proof. intros Hb. unfold slots_of. rewrite N.add_comm, N.mod_add by discriminate. apply N.mod_small, Hb. Qed.
Lemma mk_word a b : a <= 255 -> b < two16 -> mk_state a b = a * two16 + b.
Proof. intros Ha Hb. unfold mk_state. rewrite !N.mod_small; [reflexivity|exact Hb|unfold two8; lia]. Qed.

Lemma ctl_subs s : Inv s -> subs_of (ctl s) = total_subs s /\ slots_of (ctl s) = total_slots s /\ total_slots s < two16.
Proof.
  intros HI. destruct (totals s HI) as [A B]. destruct HI as (HC & _). rewrite HC.
  assert (total_slots s < two16) by (unfold two16; lia).
  split; [apply subs_word; lia|]. split; [apply slots_word; assumption|assumption].
Qed.

(** a step of p that keeps its log *)
Lemma upd_same s p k pc' l' w' r' :
  Inv s -> klog (pcs s p) = Some k -> klog pc' = Some k -> zown l' = Some p ->
  bits pc' l' -> fact pc' -> (forall c, held pc' = Some c -> c <= 255) ->
  (w' = ctl s /\ held pc' = held (pcs s p) \/
   forall A B, A + one (held (pcs s p)) = total_subs s + one (held pc') ->
               B + cnt (held (pcs s p)) = total_slots s + cnt (held pc') ->
               A <= N.of_nat M -> B <= 255 * A ->
               w' = A * two16 + B /\ (enforce = true -> B <= S)) ->
  Inv (mkZ w' (fupd (logs s) k l') (fupd (pcs s) p pc') r').
Proof.
  intros HI Hk Hk' Hown Hb Hf Hh HW. pose proof HI as (HC & HE & HO & HLT & HF & HL).
  set (s' := mkZ w' (fupd (logs s) k l') (fupd (pcs s) p pc') r').
  assert (OWN : zown (logs s k) = Some p) by (apply HO, Hk).
  assert (Hkm : (k < M)%nat) by (apply (HLT k p OWN)).
  assert (HO' : forall k0 p0, zown (logs s' k0) = Some p0 <-> klog (pcs s' p0) = Some k0).
  { intros k0 p0. cbn. destruct (Nat.eq_dec k0 k) as [->|Hk0]; [rewrite fupd_eq|rewrite fupd_neq by exact Hk0].
    - rewrite Hown. destruct (Nat.eq_dec p0 p) as [->|Hp0]; [rewrite fupd_eq; split; auto|].
      rewrite fupd_neq by exact Hp0. rewrite <- HO. split; intros X; congruence.
    - destruct (Nat.eq_dec p0 p) as [->|Hp0]; [rewrite fupd_eq|rewrite fupd_neq by exact Hp0; apply HO].
      rewrite HO. split; intros X; congruence. }
  assert (HLOC : forall p0, loc s' p0).
  { intros p0. unfold loc. cbn. destruct (Nat.eq_dec p0 p) as [->|Hp0].
    - rewrite fupd_eq, Hk', fupd_eq. auto.
    - rewrite fupd_neq by exact Hp0. destruct (HL p0) as (X & Y & Z). split; [|split; auto].
      destruct (klog (pcs s p0)) as [k0|] eqn:EK; [|exact X].
      rewrite fupd_neq; [exact X|]. intros ->. apply HO in EK. congruence. }
  assert (VK : via s' k = held pc') by (unfold via; cbn; rewrite fupd_eq, Hown, fupd_eq; reflexivity).
  assert (VK0 : via s k = held (pcs s p)) by (unfold via; rewrite OWN; reflexivity).
  assert (VO : forall j, j <> k -> via s' j = via s j).
  { intros j Hj. unfold via. cbn. rewrite fupd_neq by exact Hj. destruct (zown (logs s j)) as [q|] eqn:E; [|reflexivity].
    rewrite fupd_neq; [reflexivity|]. intros ->. apply HO in E. congruence. }
  assert (TA : total_subs s' + one (held (pcs s p)) = total_subs s + one (held pc')).
  { unfold total_subs. rewrite <- VK, <- VK0.
    apply (nsum_change (fun k => one (via s k)) (fun k => one (via s' k)) M k Hkm).
    intros j _ Hj. rewrite VO by exact Hj. reflexivity. }
  assert (TB : total_slots s' + cnt (held (pcs s p)) = total_slots s + cnt (held pc')).
  { unfold total_slots. rewrite <- VK, <- VK0.
    apply (nsum_change (fun k => cnt (via s k)) (fun k => cnt (via s' k)) M k Hkm).
    intros j _ Hj. rewrite VO by exact Hj. reflexivity. }
  assert (LA : total_subs s' <= N.of_nat M) by (apply nsum_le1; intros; apply one_le1).
  assert (LB : total_slots s' <= 255 * total_subs s') by (apply nsum_le_mul; intros; apply via_le, HLOC).
  assert (W : ctl s' = total_subs s' * two16 + total_slots s' /\ (enforce = true -> total_slots s' <= S)).
  { destruct HW as [[-> HH]|HW].
    - rewrite HH in TA, TB. assert (total_subs s' = total_subs s) as -> by lia.
      assert (total_slots s' = total_slots s) as -> by lia. split; [exact HC|exact HE].
    - exact (HW _ _ TA TB LA LB). }
  split; [apply W|]. split; [apply W|]. split; [exact HO'|]. split; [|split; [|exact HLOC]].
  - intros k0 p0. cbn. destruct (Nat.eq_dec k0 k) as [->|Hk0]; [intros _; exact Hkm|].
    rewrite fupd_neq by exact Hk0. apply HLT.
  - intros k0. cbn. destruct (Nat.eq_dec k0 k) as [->|Hk0]; [rewrite fupd_eq; congruence|].
    rewrite fupd_neq by exact Hk0. apply HF.
Qed.

(** a step of p that neither has nor gets a log *)
Lemma upd_none s p pc' r' :
  Inv s -> klog (pcs s p) = None -> klog pc' = None -> held pc' = None -> fact pc' ->
  Inv (mkZ (ctl s) (logs s) (fupd (pcs s) p pc') r').
Proof.
  intros HI Hk Hk' Hh Hf. pose proof HI as (HC & HE & HO & HLT & HF & HL).
  set (s' := mkZ (ctl s) (logs s) (fupd (pcs s) p pc') r').
  assert (NP : forall k, zown (logs s k) <> Some p) by (intros k E; apply HO in E; congruence).
  assert (V : forall k, via s' k = via s k).
  { intros k. unfold via. cbn. destruct (zown (logs s k)) as [q|] eqn:E; [|reflexivity].
    rewrite fupd_neq; [reflexivity|]. intros ->. exact (NP k E). }
  assert (TA : total_subs s' = total_subs s) by (apply nsum_ext; intros; rewrite V; reflexivity).
  assert (TB : total_slots s' = total_slots s) by (apply nsum_ext; intros; rewrite V; reflexivity).
  split; [rewrite TA, TB; exact HC|]. split; [rewrite TB; exact HE|]. split; [|split; [exact HLT|split; [exact HF|]]].
  - intros k q. cbn. destruct (Nat.eq_dec q p) as [->|Hq]; [rewrite fupd_eq|rewrite fupd_neq by exact Hq; apply HO].
    rewrite Hk'. split; [intros X; destruct (NP k X)|discriminate].
  - intros q. unfold loc. cbn. destruct (Nat.eq_dec q p) as [->|Hq]; [rewrite fupd_eq, Hk', Hh|rewrite fupd_neq by exact Hq; apply HL].
    split; [reflexivity|split; [exact Hf|discriminate]].
Qed.

(** acquisition of a free log *)
Lemma upd_acquire s p k c l' r' :
  Inv s -> klog (pcs s p) = None -> (k < M)%nat -> zown (logs s k) = None -> c <= 255 ->
  l' = mkZL (Some p) (zbeg (logs s k)) (zend (logs s k)) (zcnt (logs s k)) ->
  Inv (mkZ (ctl s) (fupd (logs s) k l') (fupd (pcs s) p (ZBegin k c)) r').
Proof.
  intros HI Hk Hkm Hfree Hc ->. pose proof HI as (HC & HE & HO & HLT & HF & HL).
  set (s' := mkZ (ctl s) _ _ r').
  assert (NP : forall k, zown (logs s k) <> Some p) by (intros j E; apply HO in E; congruence).
  assert (V : forall j, via s' j = via s j).
  { intros j. unfold via. cbn. destruct (Nat.eq_dec j k) as [->|Hj].
    - rewrite fupd_eq, Hfree. cbn. rewrite fupd_eq. reflexivity.
    - rewrite fupd_neq by exact Hj. destruct (zown (logs s j)) as [q|] eqn:E; [|reflexivity].
      rewrite fupd_neq; [reflexivity|]. intros ->. exact (NP j E). }
  assert (TA : total_subs s' = total_subs s) by (apply nsum_ext; intros; rewrite V; reflexivity).
  assert (TB : total_slots s' = total_slots s) by (apply nsum_ext; intros; rewrite V; reflexivity).
  split; [rewrite TA, TB; exact HC|]. split; [rewrite TB; exact HE|]. split; [|split; [|split]].
  - intros j q. cbn. destruct (Nat.eq_dec j k) as [->|Hj]; [rewrite fupd_eq|rewrite fupd_neq by exact Hj].
    + cbn. destruct (Nat.eq_dec q p) as [->|Hq]; [rewrite fupd_eq; cbn; split; auto|rewrite fupd_neq by exact Hq].
      rewrite <- HO, Hfree. split; [intros X; injection X; congruence|discriminate].
    + destruct (Nat.eq_dec q p) as [->|Hq]; [rewrite fupd_eq; cbn|rewrite fupd_neq by exact Hq; apply HO].
      split; [intros X; destruct (NP j X)|intros X; injection X; congruence].
  - intros j q. cbn. destruct (Nat.eq_dec j k) as [->|Hj]; [intros _; exact Hkm|rewrite fupd_neq by exact Hj; apply HLT].
  - intros j. cbn. destruct (Nat.eq_dec j k) as [->|Hj]; [rewrite fupd_eq; cbn; discriminate|rewrite fupd_neq by exact Hj; apply HF].
  - intros q. unfold loc. cbn. destruct (Nat.eq_dec q p) as [->|Hq].
    + rewrite fupd_eq. cbn. rewrite fupd_eq. cbn. split; [apply HF, Hfree|]. split; [exact Hc|discriminate].
    + rewrite fupd_neq by exact Hq. destruct (HL q) as (X & Y & Z). split; [|split; auto].
      destruct (klog (pcs s q)) as [j|] eqn:E; [|exact X]. rewrite fupd_neq; [exact X|].
      intros ->. apply HO in E. congruence.
Qed.

(** release *)
Lemma upd_release s p k l' r' :
  Inv s -> klog (pcs s p) = Some k -> held (pcs s p) = None -> zown l' = None ->
  zbeg l' = false -> zend l' = false ->
  Inv (mkZ (ctl s) (fupd (logs s) k l') (fupd (pcs s) p ZNot) r').
Proof.
  intros HI Hk Hh Hown Hb He. pose proof HI as (HC & HE & HO & HLT & HF & HL).
  set (s' := mkZ (ctl s) _ _ r').
  assert (OWN : zown (logs s k) = Some p) by (apply HO, Hk).
  assert (V : forall j, via s' j = via s j).
  { intros j. unfold via. cbn. destruct (Nat.eq_dec j k) as [->|Hj].
    - rewrite fupd_eq, Hown, OWN, Hh. reflexivity.
    - rewrite fupd_neq by exact Hj. destruct (zown (logs s j)) as [q|] eqn:E; [|reflexivity].
      rewrite fupd_neq; [reflexivity|]. intros ->. apply HO in E. congruence. }
  assert (TA : total_subs s' = total_subs s) by (apply nsum_ext; intros; rewrite V; reflexivity).
  assert (TB : total_slots s' = total_slots s) by (apply nsum_ext; intros; rewrite V; reflexivity).
  split; [rewrite TA, TB; exact HC|]. split; [rewrite TB; exact HE|]. split; [|split; [|split]].
  - intros j q. cbn. destruct (Nat.eq_dec j k) as [->|Hj]; [rewrite fupd_eq, Hown|rewrite fupd_neq by exact Hj].
    + destruct (Nat.eq_dec q p) as [->|Hq]; [rewrite fupd_eq; cbn; split; discriminate|rewrite fupd_neq by exact Hq].
      rewrite <- HO, OWN. split; [discriminate|intros X; injection X; congruence].
    + destruct (Nat.eq_dec q p) as [->|Hq]; [rewrite fupd_eq; cbn|rewrite fupd_neq by exact Hq; apply HO].
      rewrite HO. split; [congruence|discriminate].
  - intros j q. cbn. destruct (Nat.eq_dec j k) as [->|Hj]; [rewrite fupd_eq; congruence|rewrite fupd_neq by exact Hj; apply HLT].
  - intros j. cbn. destruct (Nat.eq_dec j k) as [->|Hj]; [rewrite fupd_eq; auto|rewrite fupd_neq by exact Hj; apply HF].
  - intros q. unfold loc. cbn. destruct (Nat.eq_dec q p) as [->|Hq].
    + rewrite fupd_eq. cbn. split; [reflexivity|split; [exact I|discriminate]].
    + rewrite fupd_neq by exact Hq. destruct (HL q) as (X & Y & Z). split; [|split; auto].
      destruct (klog (pcs s q)) as [j|] eqn:E; [|exact X]. rewrite fupd_neq; [exact X|].
      intros ->. apply HO in E. congruence.
Qed.

Lemma fupd_id {A} (f : nat -> A) i : forall j, fupd f i (f i) j = f j.
Proof. intros j. destruct (Nat.eq_dec j i) as [->|H]; [apply fupd_eq|apply fupd_neq, H]. Qed.

(** a step of p that changes nothing but its program point *)
Lemma Inv_ext s s' : ctl s' = ctl s -> (forall k, logs s' k = logs s k) -> (forall p, pcs s' p = pcs s p) -> Inv s -> Inv s'.
Proof.
  intros E1 E2 E3 (HC & HE & HO & HLT & HF & HL).
  assert (V : forall j, via s' j = via s j).
  { intros j. unfold via. rewrite E2. destruct (zown (logs s j)); [apply f_equal, E3|reflexivity]. }
  assert (TA : total_subs s' = total_subs s) by (apply nsum_ext; intros; rewrite V; reflexivity).
  assert (TB : total_slots s' = total_slots s) by (apply nsum_ext; intros; rewrite V; reflexivity).
  split; [rewrite E1, TA, TB; exact HC|]. split; [rewrite TB; exact HE|].
  split; [intros; rewrite E2, E3; apply HO|]. split; [intros k p; rewrite E2; apply HLT|].
  split; [intros k; rewrite E2; apply HF|]. intros p. unfold loc. rewrite E3.
  destruct (HL p) as (X & Y & Z). split; [|split; auto]. destruct (klog (pcs s p)); [rewrite E2|]; exact X.
Qed.

Lemma upd_pc s p k pc' r' :
  Inv s -> klog (pcs s p) = Some k -> klog pc' = Some k -> held pc' = held (pcs s p) ->
  bits pc' (logs s k) -> fact pc' ->
  Inv (mkZ (ctl s) (logs s) (fupd (pcs s) p pc') r').
Proof.
  intros HI Hk Hk' Hh Hb Hf. pose proof HI as (_ & _ & HO & _ & _ & HL).
  apply (Inv_ext (mkZ (ctl s) (fupd (logs s) k (logs s k)) (fupd (pcs s) p pc') r')); try reflexivity.
  - intros j. cbn. symmetry. apply fupd_id.
  - assert (OWN : zown (logs s k) = Some p) by (apply HO, Hk).
    apply upd_same; auto. intros c. rewrite Hh. apply (HL p).
Qed.

Lemma Inv_terminate_retry s p k : Inv s -> klog (pcs s p) = Some k ->
  (match pcs s p with ZUCas _ _ _ _ => True | _ => False end) -> Inv (terminate s p RRetry).
Proof.
  intros HI Hk Hpc. unfold terminate, z_pc. apply upd_pc with (k := k); auto.
  - destruct HI as (_ & _ & _ & _ & _ & HL). destruct (HL p) as (X & _ & _). rewrite Hk in X.
    destruct (pcs s p); try contradiction. destruct X as [X Y]. cbn. intros E. congruence.
  - reflexivity.
Qed.

Lemma Inv_step1 s p : Inv s -> Inv (zstep1 M S enforce s p).
Proof.
  intros HI. pose proof HI as (HC & HE & HO & HLT & HF & HL).
  destruct (ctl_subs s HI) as (CS & CSL & TLT). destruct (totals s HI) as [TM TB].
  pose proof (HL p) as (HB & HFa & HH).
  unfold zstep1, z_pc, z_log, z_ctl, z_res; cbn [ctl logs pcs resu]. revert HB HFa HH. case_eq (pcs s p); try (intros; exact HI).
  - (* ZAcq *)
    intros r i c Hpc _ Hc _. cbn in Hc. destruct (Nat.ltb_spec i M) as [Hi|Hi].
    + destruct (zown (logs s i)) as [q|] eqn:E.
      * apply upd_none; auto; try (rewrite Hpc; reflexivity); try reflexivity; try exact I.
      * apply upd_acquire; auto. rewrite Hpc; reflexivity.
    + destruct (Datatypes.S r <? M)%nat.
      * apply upd_none; auto; try (rewrite Hpc; reflexivity); try reflexivity; try exact I.
      * apply (Inv_ext (mkZ (ctl s) (logs s) (fupd (pcs s) p ZNot) (resu s))); try reflexivity.
        apply upd_none; auto; try (rewrite Hpc; reflexivity); try reflexivity; try exact I.
  - (* ZBegin *)
    intros k c Hpc HB Hc _. cbn in HB, Hc. destruct HB as [B1 B2]. cbv zeta. rewrite B1, B2. cbn [orb].
    assert (OWN : zown (logs s k) = Some p) by (apply HO; rewrite Hpc; reflexivity).
    apply upd_same; auto; try (rewrite Hpc; reflexivity); try reflexivity; try exact I.
    + cbn. auto.
    + cbn. discriminate.
    + left. rewrite Hpc. auto.
  - (* ZLoad *)
    intros k c r Hpc HB Hc _. cbn in HB, Hc. cbv zeta.
    assert (OWN : zown (logs s k) = Some p) by (apply HO; rewrite Hpc; reflexivity).
    assert (Hkm : (k < M)%nat) by (apply (HLT k p OWN)).
    assert (LT : total_subs s < N.of_nat M).
    { apply (nsum_lt1 _ M k Hkm); [|intros; apply one_le1]. unfold via. rewrite OWN, Hpc. reflexivity. }
    destruct (N.leb_spec (N.of_nat M) (subs_of (ctl s))) as [L|L]; [lia|].
    destruct (enforce && (S <? slots_of (ctl s) + c)) eqn:EE.
    + apply upd_pc with (k := k); auto; try (rewrite Hpc; reflexivity); try reflexivity; try exact I. cbn. tauto.
    + apply upd_pc with (k := k); auto; try (rewrite Hpc; reflexivity); try reflexivity; try exact I.
      cbn. split; [exact Hc|split; [exact L|]]. intros HEN. rewrite HEN in EE. cbn in EE. apply N.ltb_ge in EE. exact EE.
  - (* ZCas *)
    intros k c r old Hpc HB Hc _. cbn in HB, Hc. destruct Hc as (Hc & Hs & Hsl).
    assert (OWN : zown (logs s k) = Some p) by (apply HO; rewrite Hpc; reflexivity).
    destruct (ctl s =? old) eqn:E.
    + apply N.eqb_eq in E. subst old. rewrite CS, CSL in *.
      apply (Inv_ext (mkZ (mk_state (total_subs s + 1) (total_slots s + c)) (fupd (logs s) k (logs s k)) (fupd (pcs s) p (ZCommit k c)) (resu s)));
        try reflexivity.
      { intros j. cbn. symmetry. apply fupd_id. }
      apply upd_same; auto; try (rewrite Hpc; reflexivity); try reflexivity; try exact I.
      * cbn. intros c0 X. injection X as <-. exact Hc.
      * right. rewrite Hpc. cbn [held one cnt]. intros A B EA EB LA LB.
        rewrite mk_word; [|lia|unfold two16; lia]. split; [f_equal; [f_equal|]; lia|].
        intros HEN. specialize (Hsl HEN). lia.
    + unfold retry_sub. destruct (Datatypes.S r <? 2 * M)%nat.
      * apply upd_pc with (k := k); auto; try (rewrite Hpc; reflexivity); try reflexivity; try exact I. 
      * apply upd_pc with (k := k); auto; try (rewrite Hpc; reflexivity); try reflexivity; try exact I. cbn. tauto.
  - (* ZAbort *)
    intros k Hpc HB _ _. cbn in HB. destruct HB as [B1 B2]. cbv zeta. rewrite B1, B2. cbn [orb negb].
    assert (OWN : zown (logs s k) = Some p) by (apply HO; rewrite Hpc; reflexivity).
    apply (Inv_ext (mkZ (ctl s) (fupd (logs s) k (mkZL (zown (logs s k)) false false (zcnt (logs s k)))) (fupd (pcs s) p (ZRel k)) (resu s)));
      try reflexivity.
    apply upd_same; auto; try (rewrite Hpc; reflexivity); try reflexivity; try exact I.
    + cbn. auto.
    + cbn. discriminate.
    + left. rewrite Hpc. auto.
  - (* ZRel *)
    intros k Hpc HB _ _. cbn in HB. destruct HB as [B1 B2]. cbv zeta. rewrite B1, B2. cbn [orb negb].
    apply upd_release; auto; try (rewrite Hpc; reflexivity); try reflexivity; try exact I.
  - (* ZCommit *)
    intros k c Hpc HB _ HH. cbn in HB. destruct HB as (B1 & B2 & B3). cbv zeta. rewrite B1, B2. cbn [orb negb].
    assert (OWN : zown (logs s k) = Some p) by (apply HO; rewrite Hpc; reflexivity).
    apply (Inv_ext (mkZ (ctl s) (fupd (logs s) k (mkZL (zown (logs s k)) true true (zcnt (logs s k)))) (fupd (pcs s) p (ZSub k c)) (resu s)));
      try reflexivity.
    apply upd_same; auto; try (rewrite Hpc; reflexivity); try reflexivity; try exact I.
    + cbn. auto.
    + left. rewrite Hpc. auto.
  - (* ZUBegin *)
    intros k c Hpc HB _ HH. cbn in HB. destruct HB as (B1 & B2 & B3). cbv zeta. rewrite B1, B2. cbn [orb negb].
    assert (OWN : zown (logs s k) = Some p) by (apply HO; rewrite Hpc; reflexivity).
    apply upd_same; auto; try (rewrite Hpc; reflexivity); try reflexivity; try exact I.
    + cbn. auto.
    + left. rewrite Hpc. auto.
  - (* ZULoad *)
    intros k c r Hpc HB _ HH. cbn in HB. cbv zeta.
    assert (OWN : zown (logs s k) = Some p) by (apply HO; rewrite Hpc; reflexivity).
    assert (Hkm : (k < M)%nat) by (apply (HLT k p OWN)).
    assert (V : via s k = Some c) by (unfold via; rewrite OWN, Hpc; reflexivity).
    assert (1 <= total_subs s). { pose proof (nsum_ge (fun k => one (via s k)) M k Hkm) as X. cbn beta in X. rewrite V in X. exact X. }
    assert (c <= total_slots s). { pose proof (nsum_ge (fun k => cnt (via s k)) M k Hkm) as X. cbn beta in X. rewrite V in X. exact X. }
    destruct (N.eqb_spec (subs_of (ctl s)) 0) as [X|X]; [lia|].
    destruct (N.ltb_spec (slots_of (ctl s)) c) as [Y|Y]; [lia|].
    apply upd_pc with (k := k); auto; try (rewrite Hpc; reflexivity); try reflexivity; try exact I.
    cbn. split; [exact X|exact Y].
  - (* ZUCas *)
    intros k c r old Hpc HB Hc HH. cbn in HB, Hc. destruct Hc as (Hs & Hsl).
    assert (OWN : zown (logs s k) = Some p) by (apply HO; rewrite Hpc; reflexivity).
    destruct (ctl s =? old) eqn:E.
    + apply N.eqb_eq in E. subst old. rewrite CS, CSL in *.
      apply (Inv_ext (mkZ (mk_state (total_subs s - 1) (total_slots s - c)) (fupd (logs s) k (logs s k)) (fupd (pcs s) p (ZUCommit k)) (resu s)));
        try reflexivity.
      { intros j. cbn. symmetry. apply fupd_id. }
      apply upd_same; auto; try (rewrite Hpc; reflexivity); try reflexivity; try exact I.
      * cbn. discriminate.
      * right. rewrite Hpc. cbn [held one cnt]. intros A B EA EB LA LB.
        rewrite mk_word; [|lia|unfold two16; lia]. split; [f_equal; [f_equal|]; lia|].
        intros HEN. specialize (HE HEN). lia.
    + unfold retry_unsub. destruct (Datatypes.S r <? 3 * M)%nat.
      * apply upd_pc with (k := k); auto; try (rewrite Hpc; reflexivity); try reflexivity; try exact I.
      * apply (Inv_terminate_retry s p k); auto; rewrite Hpc; [reflexivity|exact I].
  - (* ZUCommit *)
    intros k Hpc HB _ HH. cbn in HB. destruct HB as (B1 & B2). cbv zeta. rewrite B1, B2. cbn [orb negb].
    assert (OWN : zown (logs s k) = Some p) by (apply HO; rewrite Hpc; reflexivity).
    apply upd_same; auto; try (rewrite Hpc; reflexivity); try reflexivity; try exact I.
    + cbn. auto.
    + left. rewrite Hpc. auto.
Qed.

Lemma Inv_step s l : Inv s -> Inv (zstep M S enforce s l).
Proof.
  intros HI. pose proof HI as (HC & HE & HO & HLT & HF & HL).
  destruct l as [p c|p|p|p|p|p]; cbn [zstep].
  - case_eq (pcs s p); try (intros; exact HI). intros Hpc.
    destruct (N.leb_spec c 255) as [Hc|Hc]; [|exact HI]. destruct (0 <? M)%nat.
    + apply upd_none; auto; try (rewrite Hpc; reflexivity); try reflexivity; try exact I.
    + apply (Inv_ext s); auto.
  - case_eq (pcs s p); try (intros; exact HI). intros k c Hpc.
    pose proof (HL p) as (HB & _ & _). rewrite Hpc in HB. cbn in HB.
    apply upd_pc with (k := k); auto; try (rewrite Hpc; reflexivity); try reflexivity; try exact I.
  - apply Inv_step1, HI.
  - pose proof (HL p) as (HB & HFa & HH). revert HB HFa HH. case_eq (pcs s p); try (intros; exact HI).
    + intros k c r old Hpc HB Hc _. cbn in HB, Hc. unfold retry_sub. destruct (Datatypes.S r <? 2 * M)%nat.
      * apply upd_pc with (k := k); auto; try (rewrite Hpc; reflexivity); try reflexivity; try exact I. cbn. tauto.
      * apply upd_pc with (k := k); auto; try (rewrite Hpc; reflexivity); try reflexivity; try exact I. cbn. tauto.
    + intros k c r old Hpc HB Hc _. cbn in HB, Hc. unfold retry_unsub. destruct (Datatypes.S r <? 3 * M)%nat.
      * apply upd_pc with (k := k); auto; try (rewrite Hpc; reflexivity); try reflexivity; try exact I.
      * apply (Inv_terminate_retry s p k); auto; rewrite Hpc; [reflexivity|exact I].
  - pose proof (HL p) as (HB & HFa & HH).
    assert (G : Inv (z_pc s p (ZDead (klog (pcs s p)) (held (pcs s p))))).
    { destruct (klog (pcs s p)) as [k|] eqn:EK.
      - apply upd_pc with (k := k); auto; try reflexivity.
        destruct (pcs s p); cbn [klog held bits] in *; try discriminate EK; try exact HB;
          repeat match goal with X : _ /\ _ |- _ => destruct X end; intros E; try congruence;
          injection EK as <-; rewrite ?H, ?H0, ?H1; try reflexivity; try congruence.
      - apply upd_none; auto; try reflexivity. }
    destruct (pcs s p); try exact G; exact HI.
  - pose proof (HL p) as (HB & HFa & HH). revert HB HFa HH.
    assert (G : forall k g, klog (pcs s p) = Some k -> held (pcs s p) = g ->
       (zbeg (logs s k) = zend (logs s k) -> g = if zbeg (logs s k) then Some (zcnt (logs s k)) else None) ->
       Inv (if zbeg (logs s k) && zend (logs s k) then z_pc s p (ZUBegin k (zcnt (logs s k)))
          else if zbeg (logs s k) || zend (logs s k) then z_res s p ZCouldNotRestartProxy
          else z_pc s p (ZRel k))).
    { intros k g Hk Hg HB. destruct (zbeg (logs s k)) eqn:B1, (zend (logs s k)) eqn:B2; cbn [andb orb].
      - apply upd_pc with (k := k); auto; try reflexivity.
        + rewrite Hg, HB by reflexivity. reflexivity.
        + cbn. auto.
      - apply (Inv_ext s); auto.
      - apply (Inv_ext s); auto.
      - apply upd_pc with (k := k); auto; try reflexivity.
        + rewrite Hg, HB by reflexivity. reflexivity.
        + cbn. auto. }
    case_eq (pcs s p); try (intros; exact HI).
    + intros k g Hpc HB _ _. destruct k as [k|].
      * cbn in HB. apply (G k g); auto; try (rewrite Hpc; reflexivity); try reflexivity; try exact I.
      * cbn in HB. apply upd_none; auto; try (rewrite Hpc; reflexivity); try reflexivity; try exact I.
    + intros why k g Hpc HB _ _. destruct k as [k|].
      * cbn in HB. apply (G k g); auto; try (rewrite Hpc; reflexivity); try reflexivity; try exact I.
      * cbn in HB. apply upd_none; auto; try (rewrite Hpc; reflexivity); try reflexivity; try exact I.
Qed.

Lemma Inv_init : Inv zinit.
Proof.
  assert (V : forall k, via zinit k = None) by reflexivity.
  assert (TA : total_subs zinit = 0).
  { unfold total_subs. clear HM. induction M as [|m IH]; cbn [nsum]; [reflexivity|]. rewrite V, IH. reflexivity. }
  assert (TB : total_slots zinit = 0).
  { unfold total_slots. clear HM TA. induction M as [|m IH]; cbn [nsum]; [reflexivity|]. rewrite V, IH. reflexivity. }
  split; [rewrite TA, TB; reflexivity|]. split; [rewrite TB; lia|].
  split; [intros k p; cbn; split; discriminate|]. split; [cbn; discriminate|]. split; [cbn; auto|].
  intros p. split; [reflexivity|]. split; [exact I|]. cbn. discriminate.
Qed.

Lemma Inv_run ls : forall s, Inv s -> Inv (zrun M S enforce s ls).
Proof. induction ls as [|l ls IH]; intros s H; [exact H|]. cbn. apply IH, Inv_step, H. Qed.

Lemma Inv_reach ls : Inv (zrun M S enforce zinit ls).
Proof. apply Inv_run, Inv_init. Qed.
End Inv.
