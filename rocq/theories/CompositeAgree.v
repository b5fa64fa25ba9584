(** Agreement of the two control arrays while the QM side is well-behaved and the
    provider is not interrupted between an update of the one and of the other. *)
From Verif Require Import CompositeModel SlotWord CompositeProofs.
Ltac Zify.zify_post_hook ::= idtac.
Opaque MAX_MULTI MAX_SINGLE.

(** the two words of one slot agree *)
Definition agree (q b : N) (qr br : nat) : Prop :=
  (q = IN_WRITING /\ b = IN_WRITING /\ qr = 0) \/
  (q = 0%N /\ b = 0%N /\ qr = 0) \/
  (exists t, (0 < t < two32 - 1)%N /\ q = word t (N.of_nat qr) /\ b = word t (N.of_nat br)).

(** a value read from the QM control still fits the ASIL-B word *)
Definition fits (v b : N) (br : nat) : Prop :=
  (v = 0%N /\ b = 0%N) \/ (v = IN_WRITING /\ b = IN_WRITING) \/
  (exists t r, (0 < t < two32 - 1)%N /\ (r < two32 - 1)%N /\ v = word t r /\ b = word t (N.of_nat br)).

Definition halfclean (q b : N) (qr : nat) : Prop := q = 0%N /\ b = IN_WRITING /\ qr = 0.

Section W.
Variables (ns nr : nat).
Hypothesis Hnr : (N.of_nat nr < two32 - 1)%N.

Definition ag (s : cst) (i : nat) : Prop := agree (qm s i) (cb s i) (qref s i) (bref s i).
Definition all_agree (s : cst) : Prop := forall i, i < ns -> ag s i.
Definition others_agree (s : cst) (k : nat) : Prop := forall i, i < ns -> i <> k -> ag s i.
Definition fit (s : cst) (i : nat) (v : N) : Prop := i < ns -> fits v (cb s i) (bref s i).
Definition best_fit (s : cst) (best : option (nat * N)) : Prop :=
  match best with None => True | Some (j, v) => fit s j v end.
Definition half (s : cst) (i : nat) : Prop := halfclean (qm s i) (cb s i) (qref s i).

Definition wpc (s : cst) : Prop :=
  match cpc s with
  | GIdle | GReadyB _ _ | GDiscB _ | GDiscBSt _ | GLatest _ _ => all_agree s
  | GScanQm _ _ best => all_agree s /\ best_fit s best
  | GScanB _ i vq best => all_agree s /\ (i < ns /\ fit s i vq) /\ best_fit s best
  | GCasQm _ i v => all_agree s /\ fit s i v
  | GCasB _ i v | GRestore _ i v =>
      others_agree s i /\ (i < ns -> qm s i = IN_WRITING /\ qref s i = 0 /\ fits v (cb s i) (bref s i))
  | GBScan _ _ _ | GBCas _ _ _ => False
  | GReadyQm i t =>
      others_agree s i /\ (0 < t < two32 - 1)%N /\
      (i < ns -> qm s i = IN_WRITING /\ qref s i = 0 /\ cb s i = word t (N.of_nat (bref s i)))
  | GDiscQm i =>
      others_agree s i /\ (i < ns -> ag s i /\ qm s i <> IN_WRITING \/ (qm s i = IN_WRITING /\ qref s i = 0 /\ cb s i = 0%N))
  | GDiscQmSt i =>
      others_agree s i /\ (i < ns -> qm s i = IN_WRITING /\ qref s i = 0 /\ cb s i = 0%N)
  | GDead => forall i, i < ns -> ag s i \/ half s i
  | GCleanQm j => (forall i, i < ns -> ag s i \/ half s i) /\ (forall i, i < ns -> i < j -> qm s i <> IN_WRITING)
  | GCleanQmCas j => (forall i, i < ns -> ag s i \/ half s i) /\ (forall i, i < ns -> i < j -> qm s i <> IN_WRITING) /\
                     j < ns /\ qm s j = IN_WRITING
  | GCleanB j => (forall i, i < ns -> i < j -> ag s i) /\ (forall i, i < ns -> ag s i \/ half s i) /\
                 (forall i, i < ns -> qm s i <> IN_WRITING)
  | GCleanBCas j => (forall i, i < ns -> i < j -> ag s i) /\ (forall i, i < ns -> ag s i \/ half s i) /\
                 (forall i, i < ns -> qm s i <> IN_WRITING) /\ cb s j = IN_WRITING /\ j < ns
  end.

Definition needs_qm (s : cst) : bool :=
  match cpc s with
  | GIdle | GReadyB _ _ | GDiscB _ | GDiscBSt _ | GBScan _ _ _ | GBCas _ _ _ => false
  | _ => true
  end.

Definition IW (s : cst) : Prop :=
  term s = false /\ (forall i, i < ns -> qref s i <= nr) /\
  (if ignore s then needs_qm s = false else wpc s).

(** A step is undisturbed when the QM side does not write on its own, and a crash
    happens only while both controls are in step: QM is not disconnected and the
    provider is not between the update of the one and of the other control. *)
Definition in_step (s : cst) : bool :=
  negb (ignore s) &&
  match cpc s with
  | GCasB _ _ _ | GRestore _ _ _ | GReadyQm _ _ | GDiscQm _ | GDiscQmSt _ => false
  | _ => true
  end.

Definition undisturbed (s : cst) (l : clabel) : Prop :=
  match l with
  | KQmWrite _ _ => False
  | KCrash => in_step s = true
  | _ => True
  end.

Fixpoint undisturbed_run (s : cst) (ls : list clabel) : Prop :=
  match ls with
  | [] => True
  | l :: r => undisturbed s l /\ undisturbed_run (cstep ns nr s l) r
  end.

Lemma wnw t r : (0 < t)%N -> (r < two32)%N -> word t r <> IN_WRITING.
Proof. intros H1 H2 E. pose proof (word_not_writing t r H1 H2) as X. rewrite E in X. discriminate X. Qed.
Lemma wni t r : (0 < t)%N -> word t r <> 0%N.
Proof. intros H1 E. pose proof (word_not_invalid t r H1) as X. rewrite E in X. discriminate X. Qed.

(** consumers keep agreement *)
Lemma agree_qinc q b qr br : agree q b qr br -> q <> 0%N -> q <> IN_WRITING -> qr < nr -> agree (w_inc q) b (S qr) br.
Proof.
  intros [(A & _)|[(A & _)|(t & Ht & A & B)]]; try congruence. intros _ _ Hlt.
  right; right. exists t. split; [exact Ht|]. split; [|exact B].
  rewrite A, word_inc by lia. f_equal; lia.
Qed.
Lemma agree_qdec q b qr br : agree q b (S qr) br -> S qr <= nr -> agree (w_dec q) b qr br.
Proof.
  intros [(A & _ & E)|[(A & _ & E)|(t & Ht & A & B)]]; try congruence. intros Hle.
  right; right. exists t. split; [exact Ht|]. split; [|exact B].
  rewrite A, word_dec by lia. f_equal; lia.
Qed.
Lemma agree_binc q b qr br : agree q b qr br -> b <> 0%N -> b <> IN_WRITING -> br < nr -> agree q (w_inc b) qr (S br).
Proof.
  intros [(_ & A & _)|[(_ & A & _)|(t & Ht & A & B)]]; try congruence. intros _ _ Hlt.
  right; right. exists t. split; [exact Ht|]. split; [exact A|].
  rewrite B, word_inc by lia. f_equal; lia.
Qed.
Lemma agree_bdec q b qr br : agree q b qr (S br) -> b <> 0%N -> b <> IN_WRITING -> S br <= nr -> agree q (w_dec b) qr br.
Proof.
  intros [(_ & A & _)|[(_ & A & _)|(t & Ht & A & B)]]; try congruence. intros _ _ Hle.
  right; right. exists t. split; [exact Ht|]. split; [exact A|].
  rewrite B, word_dec by lia. f_equal; lia.
Qed.
Lemma fits_binc v b br : fits v b br -> b <> 0%N -> b <> IN_WRITING -> br < nr -> fits v (w_inc b) (S br).
Proof.
  intros [(_ & A)|[(_ & A)|(t & r & Ht & Hr & A & B)]]; try congruence. intros _ _ Hlt.
  right; right. exists t, r. split; [exact Ht|]. split; [exact Hr|]. split; [exact A|].
  rewrite B, word_inc by lia. f_equal; lia.
Qed.
Lemma fits_bdec v b br : fits v b (S br) -> b <> 0%N -> b <> IN_WRITING -> S br <= nr -> fits v (w_dec b) br.
Proof.
  intros [(_ & A)|[(_ & A)|(t & r & Ht & Hr & A & B)]]; try congruence. intros _ _ Hlt.
  right; right. exists t, r. split; [exact Ht|]. split; [exact Hr|]. split; [exact A|].
  rewrite B, word_dec by lia. f_equal; lia.
Qed.
Lemma agree_fits q b qr br : qr <= nr -> agree q b qr br -> fits q b br.
Proof.
  intros Hq [(A & B & _)|[(A & B & _)|(t & Ht & A & B)]]; [right; left; auto|left; auto|].
  right; right. exists t, (N.of_nat qr). repeat split; auto; lia.
Qed.
Lemma fits_writing b br : fits IN_WRITING b br -> b = IN_WRITING.
Proof.
  intros [(A & _)|[(_ & A)|(t & r & Ht & Hr & A & B)]]; [discriminate A|exact A|].
  exfalso. apply (wnw t r); [lia|lia|auto].
Qed.

(** Preservation of wpc when only words of one slot change by a consumer step *)
Lemma wpc_cons s s' :
  cpc s' = cpc s ->
  (forall i, i < ns -> ag s i -> ag s' i) ->
  (forall i v, i < ns -> fits v (cb s i) (bref s i) -> fits v (cb s' i) (bref s' i)) ->
  (forall i, i < ns -> qm s i = IN_WRITING -> qref s i = 0 -> qm s' i = IN_WRITING /\ qref s' i = 0) ->
  (forall i, i < ns -> ag s i -> qm s i <> IN_WRITING -> qm s' i <> IN_WRITING) ->
  (forall i, i < ns -> half s i -> half s' i) ->
  (forall i, i < ns -> cb s i = 0%N -> cb s' i = 0%N) ->
  (forall i, i < ns -> cb s i = IN_WRITING -> cb s' i = IN_WRITING) ->
  (forall i t, i < ns -> (0 < t < two32 - 1)%N -> cb s i = word t (N.of_nat (bref s i)) -> cb s' i = word t (N.of_nat (bref s' i))) ->
  wpc s -> wpc s'.
Proof.
  intros Hpc Hag Hfit Hwr Hnw Hhalf H0 HWb Hts.
  assert (HA : all_agree s -> all_agree s') by (intros H i Hi; apply Hag; auto).
  assert (HO : forall k, others_agree s k -> others_agree s' k) by (intros k H i Hi Hk; apply Hag; auto).
  assert (HF : forall i v, fit s i v -> fit s' i v) by (intros i v H Hi; apply Hfit; auto).
  assert (HBF : forall b, best_fit s b -> best_fit s' b)
    by (intros [[j v]|]; cbn; auto).
  assert (HH : (forall i, i < ns -> ag s i \/ half s i) -> forall i, i < ns -> ag s' i \/ half s' i)
    by (intros H i Hi; destruct (H i Hi); auto).
  assert (HNW : forall i, i < ns -> ag s i \/ half s i -> qm s i <> IN_WRITING -> qm s' i <> IN_WRITING).
  { intros i Hi [A|A] N; [auto|]. destruct (Hhalf i Hi A) as (-> & _). discriminate. }
  unfold wpc. rewrite Hpc. destruct (cpc s); auto.
  - intros [? ?]; auto.
  - intros (? & [? ?] & ?); auto.
  - intros [? ?]; auto.
  - intros [X Y]. split; [auto|]. intros Hi. destruct (Y Hi) as (A & B & C).
    destruct (Hwr i Hi A B). auto.
  - intros [X Y]. split; [auto|]. intros Hi. destruct (Y Hi) as (A & B & C).
    destruct (Hwr i Hi A B). auto.
  - intros (X & Z & Y). split; [auto|]. split; [exact Z|]. intros Hi. destruct (Y Hi) as (A & B & C).
    destruct (Hwr i Hi A B). auto.
  - intros [X Y]. split; [auto|]. intros Hi. destruct (Y Hi) as [[A B]|(A & B & C)]; [left; auto|right].
    destruct (Hwr i Hi A B). auto.
  - intros [X Y]. split; [auto|]. intros Hi. destruct (Y Hi) as (A & B & C).
    destruct (Hwr i Hi A B). auto.
  - intros (X & Y). split; auto.
  - intros (X & Y & Hi & Z). split; [auto|split; [auto|]]. split; [exact Hi|].
    destruct (Hwr i Hi Z); [|auto].
    destruct (X i Hi) as [[(_ & _ & A)|[(A & _)|(t & Ht & A & B)]]|(A & _)]; auto; exfalso;
      try (rewrite A in Z; discriminate Z).
    rewrite A in Z. destruct (Nat.le_gt_cases (qref s i) nr) as [L|L].
    + apply (wnw t (N.of_nat (qref s i))) in Z; lia.
    + clear -Z Ht. unfold word, IN_WRITING, two32 in *. lia.
  - intros (X & Y & Z). split; [auto|split; auto].
  - intros (X & Y & Z & W & L). repeat split; auto.
Qed.

Lemma fupd_cases {A} (f : nat -> A) i v j : (j = i /\ fupd f i v j = v) \/ (j <> i /\ fupd f i v j = f j).
Proof. unfold fupd. destruct (Nat.eqb_spec j i); auto. Qed.

Lemma no_writing_from_agree q b qr br : agree q b qr br -> b <> IN_WRITING -> qr <= nr -> q <> IN_WRITING.
Proof.
  intros [(A & B & _)|[(A & B & _)|(t & Ht & A & B)]] Hb Hle; [congruence|subst; discriminate|].
  subst. apply wnw; lia.
Qed.

Lemma IW_next_multi s cnt :
  term s = false -> (forall i, i < ns -> qref s i <= nr) -> ignore s = false -> all_agree s -> IW (next_multi s cnt).
Proof.
  intros HT HQ HI HA. unfold next_multi. destruct (S cnt <? MAX_MULTI).
  - split; [exact HT|split; [exact HQ|]]. cbn [ignore c_pc]. rewrite HI. split; [exact HA|exact I].
  - split; [exact HT|split; [exact HQ|]]. reflexivity.
Qed.

Lemma agree_invalid q b qr br : agree q b qr br -> b = 0%N -> q = 0%N.
Proof. intros [(A & B & _)|[(A & B & _)|(t & Ht & A & B)]] E; try congruence. subst. exfalso. apply (wni t (N.of_nat br)); [lia|auto]. Qed.

Ltac done3 HT HQ :=
  split; [exact HT|split; [exact HQ|]]; cbn [ignore c_pc c_qm c_cb c_own c_pubv];
  match goal with H : ignore _ = _ |- _ => rewrite H end; unfold wpc; cbn [cpc c_pc].
Ltac fields := unfold ag, half, agree, halfclean in *; cbn [qm cb qref bref c_pc c_qm c_cb c_own c_pubv c_data c_cur].

Lemma IW_gstep n s : (n < two32 - 1)%N -> IB nr n s -> IW s -> IW (gstep ns s).
Proof.
  intros Hn HB HI. pose proof HI as (HT & HQ & HW).
  assert (HBS := HB). destruct HBS as (HS & HC & HP).
  unfold gstep. unfold wpc, needs_qm in HW. unfold bpc in HP. revert HW HP. case_eq (cpc s).
  - intros Hpc _ _. exact HI.
  - intros cnt i best Hpc HW _. destruct (ignore s) eqn:G; [discriminate HW|]. destruct HW as [HA HF].
    destruct (i <? ns) eqn:Ei.
    + apply Nat.ltb_lt in Ei. done3 HT HQ. split; [exact HA|split; [|exact HF]].
      split; [exact Ei|]. intros Hi. exact (agree_fits _ _ _ _ (HQ i Hi) (HA i Hi)).
    + destruct best as [[j v]|].
      * done3 HT HQ. split; [exact HA|exact HF].
      * apply IW_next_multi; auto.
  - intros cnt i vq best Hpc HW _. destruct (ignore s) eqn:G; [discriminate HW|].
    destruct HW as (HA & [Hi Hv] & HF). cbv zeta.
    destruct (is_invalid (cb s i) && negb (is_invalid vq)) eqn:E0; [apply IW_next_multi; auto|].
    destruct (is_used vq) eqn:U1; cbn [negb andb]; [done3 HT HQ; split; [exact HA|exact HF]|].
    destruct (is_used (cb s i)) eqn:U2; cbn [negb andb]; [done3 HT HQ; split; [exact HA|exact HF]|].
    destruct (ts_of (cb s i) <? best_ts best)%N; [|done3 HT HQ; split; [exact HA|exact HF]].
    destruct (vq =? cb s i)%N eqn:E.
    + done3 HT HQ. split; [exact HA|]. exact Hv.
    + exfalso. apply N.eqb_neq in E. apply E.
      apply unused_is_used in U1, U2. destruct U1 as [R1 N1], U2 as [R2 N2].
      destruct (Hv Hi) as [(A & B)|[(A & B)|(t & r & Ht & Hr & A & B)]]; [congruence|congruence|].
      assert (r = 0%N) by (rewrite A, rc_word in R1 by lia; exact R1).
      assert (BR : N.of_nat (bref s i) = 0%N).
      { destruct (HS i) as [(_ & _ & X)|[(_ & _ & X)|(_ & X & _)]]; [lia|lia|].
        rewrite B, rc_word in R2 by lia. exact R2. }
      rewrite A, B, BR, H. reflexivity.
  - intros cnt i v Hpc HW HP. destruct (ignore s) eqn:G; [discriminate HW|]. destruct HW as [HA HF].
    destruct (qm s i =? v)%N eqn:E; [|apply IW_next_multi; auto].
    apply N.eqb_eq in E. done3 HT HQ. split.
    + intros j Hj Hne. fields. rewrite fupd_neq by exact Hne. apply HA, Hj.
    + intros Hi. fields. rewrite fupd_eq. split; [reflexivity|].
      destruct HP as [R N]. specialize (HA i Hi). specialize (HF Hi).
      destruct HA as [(A & _)|[(A & _ & B)|(t & Ht & A & B)]]; [congruence|split; auto|].
      split; [|exact HF]. pose proof (HQ i Hi).
      rewrite <- E, A, rc_word in R by lia. lia.
  - intros cnt i v Hpc HW HP. destruct (ignore s) eqn:G; [discriminate HW|]. destruct HW as [HO HF].
    destruct (cb s i =? v)%N eqn:E.
    + done3 HT HQ. intros j Hj. fields. destruct (Nat.eq_dec j i) as [->|Hne].
      * rewrite fupd_eq. destruct (HF Hj) as (A & B & _). left; auto.
      * rewrite fupd_neq by exact Hne. apply HO; auto.
    + done3 HT HQ. split; [exact HO|exact HF].
  - intros cnt i v Hpc HW HP. destruct (ignore s) eqn:G; [discriminate HW|]. destruct HW as [HO HF].
    apply IW_next_multi; auto.
    intros j Hj. fields. destruct (Nat.eq_dec j i) as [->|Hne].
    + rewrite fupd_eq. destruct (HF Hj) as (A & B & F). destruct HP as [R N].
      destruct F as [(X & Y)|[(X & Y)|(t & r & Ht & Hr & X & Y)]]; [right; left; auto|congruence|].
      right; right. exists t. split; [exact Ht|]. split; [|exact Y].
      rewrite X, rc_word in R by lia. rewrite X, B, R. reflexivity.
    + rewrite fupd_neq by exact Hne. apply HO; auto.
  - intros r i best Hpc HW _. destruct (ignore s) eqn:G.
    + destruct (i <? ns).
      * cbv zeta. destruct (is_invalid (cb s i)); split; auto; split; auto; cbn; rewrite G; reflexivity.
      * destruct best as [[j v]|]; [|unfold next_single; destruct (S r <=? MAX_SINGLE)];
          split; auto; split; auto; cbn; rewrite G; reflexivity.
    + destruct HW.
  - intros r i v Hpc HW _. destruct (ignore s) eqn:G; [|destruct HW].
    destruct (cb s i =? v)%N; [|unfold next_single; destruct (S r <=? MAX_SINGLE)];
      split; auto; split; auto; cbn; rewrite G; reflexivity.
  - intros i t Hpc HW [HO Ht]. cbv zeta. destruct (ignore s) eqn:G.
    + split; [exact HT|split; [exact HQ|]]. cbn. rewrite G. reflexivity.
    + done3 HT HQ. split; [|split; [lia|]].
      * intros j Hj Hne. fields. rewrite fupd_neq by exact Hne. apply HW, Hj.
      * intros Hi. fields. rewrite fupd_eq.
        destruct (HS i) as [(_ & A & R)|[(A & _)|(A & _)]]; try congruence.
        destruct (HW i Hi) as [(X & _ & Y)|[(_ & Y & _)|(t' & Ht' & _ & Y)]].
        -- rewrite R. split; [exact X|split; [exact Y|]]. apply mk_status_word; lia.
        -- rewrite A in Y; discriminate Y.
        -- rewrite R, A in Y. exfalso. apply (wnw t' 0); [lia|lia|auto].
  - intros i t Hpc HW _. destruct (ignore s) eqn:G; [discriminate HW|]. destruct HW as (HO & Ht & HF).
    done3 HT HQ. intros j Hj. fields. destruct (Nat.eq_dec j i) as [->|Hne].
    + rewrite fupd_eq. destruct (HF Hj) as (A & B & C). right; right. exists t.
      split; [exact Ht|]. rewrite B. split; [apply mk_status_word; lia|exact C].
    + rewrite fupd_neq by exact Hne. apply HO; auto.
  - intros i Hpc HW _. destruct (is_in_writing (cb s i)) eqn:E.
    + destruct (ignore s) eqn:G; [split; auto; split; auto; cbn; rewrite G; reflexivity|].
      done3 HT HQ. exact HW.
    + destruct (ignore s) eqn:G; [split; auto; split; auto; cbn; rewrite G; reflexivity|].
      done3 HT HQ. split; [intros j Hj _; apply HW, Hj|]. intros Hi. left. split; [apply HW, Hi|].
      fields. apply (no_writing_from_agree _ _ _ _ (HW i Hi)); [|apply HQ, Hi].
      intros X. rewrite X in E. discriminate E.
  - intros i Hpc HW HP. cbv zeta. destruct (ignore s) eqn:G; [split; auto; split; auto; cbn; rewrite G; reflexivity|].
    done3 HT HQ. split.
    + intros j Hj Hne. fields. rewrite fupd_neq by exact Hne. apply HW, Hj.
    + intros Hi. right. fields. rewrite fupd_eq. destruct (HW i Hi) as [(A & _ & B)|[(_ & A & _)|(t & Ht & _ & A)]].
      * auto.
      * rewrite HP in A; discriminate A.
      * exfalso. rewrite HP in A.
        destruct (HS i) as [(_ & _ & R)|[(_ & R & _)|(_ & R & _)]].
        -- rewrite R in A. apply (wnw t 0); [lia|lia|auto].
        -- rewrite R in HP; discriminate HP.
        -- apply (wnw t (N.of_nat (bref s i))); [lia|lia|auto].
  - intros i Hpc HW _. destruct (ignore s) eqn:G; [discriminate HW|]. destruct HW as (HO & HF).
    destruct (is_in_writing (qm s i)) eqn:E.
    + apply is_in_writing_true in E. done3 HT HQ. split; [exact HO|]. intros Hi.
      destruct (HF Hi) as [(_ & X)|X]; [congruence|exact X].
    + done3 HT HQ. intros j Hj. destruct (Nat.eq_dec j i) as [->|Hne]; [|apply HO; auto].
      destruct (HF Hj) as [(X & _)|(X & _)]; [exact X|]. rewrite X in E; discriminate E.
  - intros i Hpc HW _. destruct (ignore s) eqn:G; [discriminate HW|]. destruct HW as (HO & HF).
    done3 HT HQ. intros j Hj. fields. destruct (Nat.eq_dec j i) as [->|Hne].
    + rewrite fupd_eq. destruct (HF Hj) as (_ & B & C). right; left; auto.
    + rewrite fupd_neq by exact Hne. apply HO; auto.
  - intros Hpc _ _. exact HI.
  - intros i Hpc HW _. destruct (ignore s) eqn:G; [discriminate HW|]. destruct HW as (HA & HN).
    destruct (i <? ns) eqn:Ei.
    + destruct (is_in_writing (qm s i)) eqn:E.
      * apply is_in_writing_true in E. apply Nat.ltb_lt in Ei. done3 HT HQ. auto.
      * done3 HT HQ. split; [exact HA|]. intros j Hj Hlt. fields.
        destruct (Nat.eq_dec j i) as [->|Hne]; [|apply HN; lia].
        intros X. rewrite X in E. discriminate E.
    + apply Nat.ltb_ge in Ei. done3 HT HQ. split; [intros; lia|]. split; [exact HA|].
      intros j Hj. apply HN; lia.
  - intros i Hpc HW _. destruct (ignore s) eqn:G; [discriminate HW|]. destruct HW as (HA & HN & Hi & HX).
    rewrite HX, N.eqb_refl. done3 HT HQ. split.
    + intros j Hj. fields. destruct (Nat.eq_dec j i) as [->|Hne].
      * rewrite fupd_eq. right. destruct (HA i Hi) as [[(_ & B & C)|[(B & _)|(t & Ht & B & _)]]|(B & _)].
        -- auto.
        -- rewrite HX in B; discriminate B.
        -- exfalso. rewrite HX in B. pose proof (HQ i Hi). apply (wnw t (N.of_nat (qref s i))); [lia|lia|auto].
        -- rewrite HX in B; discriminate B.
      * rewrite fupd_neq by exact Hne. apply HA, Hj.
    + intros j Hj Hlt. fields. destruct (Nat.eq_dec j i) as [->|Hne].
      * rewrite fupd_eq. discriminate.
      * rewrite fupd_neq by exact Hne. apply HN; lia.
  - intros i Hpc HW _. destruct (ignore s) eqn:G; [discriminate HW|]. destruct HW as (HL & HA & HN).
    destruct (i <? ns) eqn:Ei.
    + apply Nat.ltb_lt in Ei. destruct (is_in_writing (cb s i)) eqn:E.
      * apply is_in_writing_true in E. done3 HT HQ. auto.
      * done3 HT HQ. split; [|split; [exact HA|exact HN]]. intros j Hj Hlt.
        destruct (Nat.eq_dec j i) as [->|Hne]; [|apply HL; lia].
        destruct (HA i Hj) as [X|(_ & X & _)]; [exact X|]. rewrite X in E; discriminate E.
    + apply Nat.ltb_ge in Ei. done3 HT HQ. intros j Hj. apply HL; lia.
  - intros i Hpc HW _. destruct (ignore s) eqn:G; [discriminate HW|]. destruct HW as (HL & HA & HN & HX & Hi).
    rewrite HX, N.eqb_refl. done3 HT HQ.
    assert (Z : ag (c_pc (c_own (c_cb s (fupd (cb s) i INVALID_EVENT)) (fupd (cown s) i false)) (GCleanB (S i))) i).
    { fields. rewrite fupd_eq. right; left.
      destruct (HA i Hi) as [[(A & _)|[(_ & A & _)|(t & Ht & _ & A)]]|(A & _ & B)]; auto.
      - destruct (HN i Hi A).
      - rewrite HX in A; discriminate A.
      - exfalso. rewrite HX in A. destruct (HS i) as [(_ & _ & R)|[(_ & R & _)|(_ & R & _)]].
        + rewrite R in A. apply (wnw t 0); [lia|lia|auto].
        + rewrite HX in R; discriminate R.
        + apply (wnw t (N.of_nat (bref s i))); [lia|lia|auto]. }
    split; [|split].
    + intros j Hj Hlt. destruct (Nat.eq_dec j i) as [->|Hne]; [exact Z|].
      fields. rewrite fupd_neq by exact Hne. apply HL; lia.
    + intros j Hj. destruct (Nat.eq_dec j i) as [->|Hne]; [left; exact Z|].
      fields. rewrite fupd_neq by exact Hne. apply HA, Hj.
    + exact HN.
  - intros i acc Hpc HW _. destruct (ignore s) eqn:G; [discriminate HW|].
    destruct (i <? ns); [done3 HT HQ; exact HW|].
    split; [exact HT|split; [exact HQ|exact HW]].
Qed.

Lemma wpc_all s : all_agree s -> cpc s = GIdle -> wpc s.
Proof. unfold wpc. intros H ->. exact H. Qed.

Lemma wpc_safe_dead s : in_step s = true -> (if ignore s then needs_qm s = false else wpc s) ->
  forall i, i < ns -> ag s i \/ half s i.
Proof.
  unfold in_step. intros H HW i Hi. destruct (ignore s); [discriminate H|]. cbn [negb andb] in H.
  unfold wpc in HW. destruct (cpc s); try discriminate H.
  - left; apply HW, Hi.
  - left; apply HW, Hi.
  - left; apply HW, Hi.
  - left; apply HW, Hi.
  - destruct HW.
  - destruct HW.
  - left; apply HW, Hi.
  - left; apply HW, Hi.
  - left; apply HW, Hi.
  - apply HW, Hi.
  - apply HW, Hi.
  - apply HW, Hi.
  - apply HW, Hi.
  - apply HW, Hi.
  - left; apply HW, Hi.
Qed.

Lemma IW_step n s l :
  (n + is_send l < two32 - 1)%N -> IB nr n s -> IW s -> undisturbed s l -> IW (cstep ns nr s l).
Proof.
  intros Hn HB HI HU. pose proof HI as (HT & HQ & HW). pose proof HB as (HS & HC & HP).
  destruct l; cbn [cstep undisturbed] in *; try rewrite HT.
  - destruct (idle s) eqn:E; [|exact HI]. apply idle_true in E.
    split; [exact HT|split; [exact HQ|]]. cbn [ignore c_pc]. destruct (ignore s) eqn:G; [reflexivity|].
    unfold wpc in HW. rewrite E in HW. split; [exact HW|exact I].
  - destruct (idle s && cown s i); [|exact HI]. exact HI.
  - destruct (idle s) eqn:E; cbn [andb]; [|exact HI]. apply idle_true in E. destruct (cown s i); [|exact HI].
    split; [exact HT|split; [exact HQ|]]. cbn [ignore c_pc c_cur]. destruct (ignore s) eqn:G; [reflexivity|].
    unfold wpc in HW. rewrite E in HW. exact HW.
  - destruct (idle s) eqn:E; cbn [andb]; [|exact HI]. apply idle_true in E. destruct (cown s i); [|exact HI].
    split; [exact HT|split; [exact HQ|]]. cbn [ignore c_pc c_cur]. destruct (ignore s) eqn:G; [reflexivity|].
    unfold wpc in HW. rewrite E in HW. exact HW.
  - apply (IW_gstep n); auto; lia.
  - split; [exact HT|split; [exact HQ|]]. cbn [ignore c_pc].
    pose proof (wpc_safe_dead s HU HW) as X. unfold in_step in HU. destruct (ignore s); [discriminate HU|].
    exact X.
  - revert HW. case_eq (cpc s); intros; try exact HI.
    split; [exact HT|split; [exact HQ|]]. cbn [ignore c_pc]. unfold wpc, needs_qm in HW. rewrite H in HW.
    destruct (ignore s); [discriminate HW|]. split; [exact HW|]. intros; lia.
  - (* QM consumer references *)
    destruct (i <? ns) eqn:Ei; cbn [andb]; [|exact HI]. apply Nat.ltb_lt in Ei.
    destruct (is_invalid (qm s i)) eqn:E1; cbn [negb andb]; [exact HI|].
    destruct (is_in_writing (qm s i)) eqn:E2; cbn [negb andb]; [exact HI|].
    destruct (qref s i <? nr) eqn:E3; [|exact HI]. apply Nat.ltb_lt in E3.
    assert (N1 : qm s i <> 0%N) by (intros X; rewrite X in E1; discriminate E1).
    assert (N2 : qm s i <> IN_WRITING) by (intros X; rewrite X in E2; discriminate E2).
    split; [exact HT|split].
    + intros j Hj. cbn. destruct (fupd_cases (qref s) i (S (qref s i)) j) as [[-> ->]|[_ ->]]; auto.
    + cbn [ignore c_qref c_qm]. destruct (ignore s); [exact HW|].
      assert (AG : ag s i -> agree (w_inc (qm s i)) (cb s i) (S (qref s i)) (bref s i))
        by (intros A; apply agree_qinc; auto).
      revert HW. apply wpc_cons; [reflexivity|..]; cbn [qm cb qref bref c_qref c_qm]; auto.
      * intros j Hj A. unfold ag. cbn [qm cb qref bref c_qref c_qm].
        destruct (Nat.eq_dec j i) as [->|Hne]; [rewrite !fupd_eq; auto|rewrite !fupd_neq by exact Hne; exact A].
      * intros j Hj A B. destruct (Nat.eq_dec j i) as [->|Hne]; [congruence|rewrite !fupd_neq by exact Hne; auto].
      * intros j Hj A B. destruct (Nat.eq_dec j i) as [->|Hne]; [|rewrite !fupd_neq by exact Hne; auto].
        rewrite fupd_eq. specialize (AG A). destruct A as [(A & _)|[(A & _)|(t & Ht & A & C)]]; try congruence.
        rewrite A, word_inc by lia. apply wnw; lia.
      * intros j Hj (A & B & C). unfold half, halfclean. cbn [qm cb qref bref c_qref c_qm].
        destruct (Nat.eq_dec j i) as [->|Hne]; [congruence|rewrite !fupd_neq by exact Hne; auto].
  - (* QM consumer releases *)
    destruct (qref s i) as [|k] eqn:EQ; [exact HI|].
    destruct (Nat.lt_ge_cases i ns) as [Ei|Ei].
    + pose proof (HQ i Ei) as HQi.
      split; [exact HT|split].
      * intros j Hj. cbn. destruct (fupd_cases (qref s) i k j) as [[-> ->]|[_ ->]]; auto; lia.
      * cbn [ignore c_qref c_qm]. destruct (ignore s); [exact HW|].
        assert (AG : ag s i -> agree (w_dec (qm s i)) (cb s i) k (bref s i))
          by (intros A; apply agree_qdec; [unfold ag in A; rewrite EQ in A; exact A|lia]).
        revert HW. apply wpc_cons; [reflexivity|..]; cbn [qm cb qref bref c_qref c_qm]; auto.
        -- intros j Hj A. unfold ag. cbn [qm cb qref bref c_qref c_qm].
           destruct (Nat.eq_dec j i) as [->|Hne]; [rewrite !fupd_eq; auto|rewrite !fupd_neq by exact Hne; exact A].
        -- intros j Hj A B. destruct (Nat.eq_dec j i) as [->|Hne]; [congruence|rewrite !fupd_neq by exact Hne; auto].
        -- intros j Hj A B. destruct (Nat.eq_dec j i) as [->|Hne]; [|rewrite !fupd_neq by exact Hne; auto].
           rewrite fupd_eq. destruct A as [(A & _)|[(_ & _ & A)|(t & Ht & A & C)]]; try congruence.
           rewrite A, word_dec by lia. apply wnw; lia.
        -- intros j Hj (A & B & C). unfold half, halfclean. cbn [qm cb qref bref c_qref c_qm].
           destruct (Nat.eq_dec j i) as [->|Hne]; [congruence|rewrite !fupd_neq by exact Hne; auto].
    + (* outside the array: nothing below ns changes *)
      assert (NE : forall j, j < ns -> j <> i) by (intros; lia).
      split; [exact HT|split].
      * intros j Hj. cbn. rewrite fupd_neq by auto. auto.
      * cbn [ignore c_qref c_qm]. destruct (ignore s); [exact HW|].
        revert HW. apply wpc_cons; [reflexivity|..]; unfold ag, half; cbn [qm cb qref bref c_qref c_qm];
          intros j; intros; rewrite ?fupd_neq in * by auto; auto.
  - (* ASIL-B consumer references *)
    destruct (i <? ns) eqn:Ei; cbn [andb]; [|exact HI]. apply Nat.ltb_lt in Ei.
    destruct (is_invalid (cb s i)) eqn:E1; cbn [negb andb]; [exact HI|].
    destruct (is_in_writing (cb s i)) eqn:E2; cbn [negb andb]; [exact HI|].
    destruct (bref s i <? nr) eqn:E3; [|exact HI]. apply Nat.ltb_lt in E3.
    assert (N1 : cb s i <> 0%N) by (intros X; rewrite X in E1; discriminate E1).
    assert (N2 : cb s i <> IN_WRITING) by (intros X; rewrite X in E2; discriminate E2).
    split; [exact HT|split; [exact HQ|]].
    cbn [ignore c_bref c_cb]. destruct (ignore s); [exact HW|].
    revert HW. apply wpc_cons; [reflexivity|..]; cbn [qm cb qref bref c_bref c_cb]; auto.
    + intros j Hj A. unfold ag. cbn [qm cb qref bref c_bref c_cb].
      destruct (Nat.eq_dec j i) as [->|Hne]; [rewrite !fupd_eq|rewrite !fupd_neq by exact Hne; exact A].
      apply agree_binc; auto.
    + intros j v Hj A. destruct (Nat.eq_dec j i) as [->|Hne]; [rewrite !fupd_eq|rewrite !fupd_neq by exact Hne; exact A].
      apply fits_binc; auto.
    + intros j Hj (A & B & C). unfold half, halfclean. cbn [qm cb qref bref c_bref c_cb].
      destruct (Nat.eq_dec j i) as [->|Hne]; [congruence|rewrite !fupd_neq by exact Hne; auto].
    + intros j Hj A. destruct (Nat.eq_dec j i) as [->|Hne]; [congruence|rewrite !fupd_neq by exact Hne; auto].
    + intros j Hj A. destruct (Nat.eq_dec j i) as [->|Hne]; [congruence|rewrite !fupd_neq by exact Hne; auto].
    + intros j t Hj Ht A. destruct (Nat.eq_dec j i) as [->|Hne]; [rewrite !fupd_eq|rewrite !fupd_neq by exact Hne; exact A].
      rewrite A, word_inc by lia. f_equal; lia.
  - (* ASIL-B consumer releases *)
    destruct (bref s i) as [|k] eqn:EQ; [exact HI|].
    assert (BI : bref s i <= nr /\ cb s i <> 0%N /\ cb s i <> IN_WRITING).
    { destruct (HS i) as [(_ & _ & A)|[(_ & _ & A)|(_ & A & _ & t & Ht & B)]]; try congruence.
      split; [exact A|]. rewrite B. split; [apply wni; lia|apply wnw; lia]. }
    destruct BI as (BI & N1 & N2).
    split; [exact HT|split; [exact HQ|]].
    cbn [ignore c_bref c_cb]. destruct (ignore s); [exact HW|].
    revert HW. apply wpc_cons; [reflexivity|..]; cbn [qm cb qref bref c_bref c_cb]; auto.
    + intros j Hj A. unfold ag. cbn [qm cb qref bref c_bref c_cb].
      destruct (Nat.eq_dec j i) as [->|Hne]; [rewrite !fupd_eq|rewrite !fupd_neq by exact Hne; exact A].
      apply agree_bdec; auto; [unfold ag in A; rewrite EQ in A; exact A|lia].
    + intros j v Hj A. destruct (Nat.eq_dec j i) as [->|Hne]; [rewrite !fupd_eq|rewrite !fupd_neq by exact Hne; exact A].
      apply fits_bdec; auto; [rewrite EQ in A; exact A|lia].
    + intros j Hj (A & B & C). unfold half, halfclean. cbn [qm cb qref bref c_bref c_cb].
      destruct (Nat.eq_dec j i) as [->|Hne]; [congruence|rewrite !fupd_neq by exact Hne; auto].
    + intros j Hj A. destruct (Nat.eq_dec j i) as [->|Hne]; [congruence|rewrite !fupd_neq by exact Hne; auto].
    + intros j Hj A. destruct (Nat.eq_dec j i) as [->|Hne]; [congruence|rewrite !fupd_neq by exact Hne; auto].
    + intros j t Hj Ht A. destruct (Nat.eq_dec j i) as [->|Hne]; [rewrite !fupd_eq|rewrite !fupd_neq by exact Hne; exact A].
      rewrite A, word_dec by lia. f_equal; lia.
  - destruct HU.
Qed.

Lemma IW_init : IW cinit.
Proof.
  split; [reflexivity|split; [intros; cbn; lia|]]. cbn. intros i Hi. right; left. auto.
Qed.

Lemma IW_run ls : forall n s, (n + csends ls < two32 - 1)%N -> IB nr n s -> IW s -> undisturbed_run s ls ->
  IW (crun ns nr s ls).
Proof.
  induction ls as [|l ls IH]; cbn [csends fold_right crun fold_left undisturbed_run]; intros n s Hn HB HI HU; [exact HI|].
  change (fold_right (fun (l0 : clabel) (a : N) => (is_send l0 + a)%N) 0%N ls) with (csends ls) in *.
  destruct HU as [HU1 HU2].
  apply (IH (n + is_send l)%N); [lia| |apply (IW_step n); auto; lia|exact HU2].
  apply IB_step; [exact Hnr|lia|exact HB].
Qed.

Lemma IW_reach ls : (csends ls < two32 - 1)%N -> undisturbed_run cinit ls -> IW (crun ns nr cinit ls).
Proof. intros H HU. apply (IW_run ls 0 cinit); [lia|apply IB_init|apply IW_init|exact HU]; exact Hnr. Qed.
End W.
