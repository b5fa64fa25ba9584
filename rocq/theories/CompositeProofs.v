(** Invariants of the two-quality event (CompositeModel.v). *)
From Verif Require Import CompositeModel SlotWord.
Ltac Zify.zify_post_hook ::= idtac.
Opaque MAX_MULTI MAX_SINGLE.

Definition unused_word (v : N) : Prop := rc_of v = 0%N /\ v <> IN_WRITING.

(** state of one slot of the ASIL-B control *)
Definition bslot (nr : nat) (n : N) (own : bool) (b : N) (refs : nat) (d p : N) : Prop :=
  (own = true /\ b = IN_WRITING /\ refs = 0) \/
  (own = false /\ b = 0%N /\ refs = 0) \/
  (own = false /\ refs <= nr /\ d = p /\ exists t, (0 < t <= n)%N /\ b = word t (N.of_nat refs)).

Definition best_unused (best : option (nat * N)) : Prop :=
  match best with None => True | Some (_, v) => unused_word v end.

Definition bpc (n : N) (s : cst) : Prop :=
  match cpc s with
  | GScanQm _ _ best => best_unused best
  | GScanB _ _ _ best => best_unused best
  | GCasQm _ _ v => unused_word v
  | GCasB _ _ v => unused_word v
  | GRestore _ _ v => unused_word v
  | GBScan _ _ best => best_unused best
  | GBCas _ _ v => unused_word v
  | GReadyB i t => cown s i = true /\ (0 < t <= n)%N
  | GDiscBSt i => cb s i = IN_WRITING
  | GLatest _ acc => (acc <= n)%N
  | _ => True
  end.

Definition IB (nr : nat) (n : N) (s : cst) : Prop :=
  (forall i, bslot nr n (cown s i) (cb s i) (bref s i) (cdata s i) (pubv s i)) /\
  (ccur s <= n)%N /\ bpc n s.

Lemma unused_is_used v : is_used v = false -> unused_word v.
Proof.
  unfold is_used, unused_word. rewrite orb_false_iff, negb_false_iff, N.eqb_eq.
  intros [H1 H2]. split; [exact H1|]. intros ->. discriminate H2.
Qed.

Lemma unused_invalid v : is_invalid v = true -> unused_word v.
Proof. intros H%is_invalid_true; subst. split; [reflexivity|discriminate]. Qed.

Lemma bslot_unused nr n own b refs d p :
  (n < two32)%N -> (N.of_nat nr < two32)%N -> unused_word b -> bslot nr n own b refs d p -> refs = 0.
Proof.
  intros Hn Hr [H1 H2] [(-> & -> & ->)|[(-> & -> & ->)|(-> & Hle & _ & t & Ht & ->)]]; auto.
  rewrite rc_word in H1 by lia. lia.
Qed.

Lemma bslot_mono nr n m own b refs d p : (n <= m)%N -> bslot nr n own b refs d p -> bslot nr m own b refs d p.
Proof.
  intros H [A|[A|(A & B & C & t & Ht & E)]]; [left|right; left|right; right]; auto.
  repeat split; auto. exists t. split; [lia|exact E].
Qed.

Lemma scan_oldest_unused best i w : best_unused best -> best_unused (scan_oldest best i w).
Proof.
  unfold scan_oldest. intros H.
  destruct (rc_of w =? 0)%N eqn:E1; cbn [andb]; [|exact H].
  destruct (is_in_writing w) eqn:E2; cbn [negb andb]; [exact H|].
  destruct (ts_of w <? best_ts best)%N; [|exact H].
  cbn. split; [apply N.eqb_eq; exact E1|]. intros ->. discriminate E2.
Qed.

Lemma latest_acc_le n nr acc own b refs d p :
  (N.of_nat nr < two32)%N -> (n < two32)%N ->
  (acc <= n)%N -> bslot nr n own b refs d p -> (latest_acc acc b <= n)%N.
Proof.
  intros Hr Hn Ha [(-> & -> & ->)|[(-> & -> & ->)|(-> & Hle & _ & t & Ht & ->)]]; unfold latest_acc.
  - cbn. exact Ha.
  - cbn. exact Ha.
  - rewrite ts_word by lia. destruct (negb _ && negb _ && (acc <? t)%N); lia.
Qed.

Definition is_send (l : clabel) : N := match l with KSend _ => 1%N | _ => 0%N end.

Section B.
Variables (ns nr : nat).
Hypothesis Hnr : (N.of_nat nr < two32 - 1)%N.

Ltac slot0 H := intros ?i; apply H.
Ltac slot_at i0 H :=
  let j := fresh "j" in intros j; destruct (Nat.eq_dec j i0) as [->|?Hne];
  [rewrite ?fupd_eq|rewrite ?fupd_neq by assumption; apply H].

Lemma IB_next_multi n s cnt : IB nr n s -> IB nr n (next_multi s cnt).
Proof.
  intros (H1 & H2 & _). unfold next_multi.
  destruct (S cnt <? MAX_MULTI); repeat split; auto.
Qed.
Lemma IB_next_single n s cnt : IB nr n s -> IB nr n (next_single s cnt).
Proof.
  intros (H1 & H2 & _). unfold next_single.
  destruct (S cnt <=? MAX_SINGLE); repeat split; auto.
Qed.

Lemma IB_gstep n s : (n < two32 - 1)%N -> IB nr n s -> IB nr n (gstep ns s).
Proof.
  intros Hn HI. pose proof HI as (HS & HC & HP). unfold gstep. unfold bpc in HP.
  revert HP. case_eq (cpc s).
  - intros Hpc _. exact HI.
  - intros cnt i best Hpc HP. destruct (i <? ns); [repeat split; auto|].
    destruct best as [[j v]|]; [repeat split; auto; apply HP|apply IB_next_multi, HI].
  - intros cnt i vq best Hpc HP. cbv zeta.
    destruct (is_invalid (cb s i) && negb (is_invalid vq)); [apply IB_next_multi, HI|].
    destruct (is_used vq) eqn:U1; cbn [negb andb]; [repeat split; auto|].
    destruct (is_used (cb s i)) eqn:U2; cbn [negb andb]; [repeat split; auto|].
    destruct (ts_of (cb s i) <? best_ts best)%N; [|repeat split; auto].
    destruct (vq =? cb s i)%N.
    + repeat split; auto; apply (unused_is_used vq U1).
    + repeat split; auto. unfold bpc. cbn [cpc c_term]. rewrite Hpc. exact HP.
  - intros cnt i v Hpc HP. destruct (qm s i =? v)%N; [|apply IB_next_multi, HI].
    repeat split; auto; apply HP.
  - intros cnt i v Hpc HP. destruct (cb s i =? v)%N eqn:E.
    + apply N.eqb_eq in E. subst v.
      assert (R : bref s i = 0) by (refine (bslot_unused _ _ _ _ _ _ _ _ _ HP (HS i)); lia).
      split; [|split; [exact HC|exact I]]. cbn [cown cb bref cdata pubv c_pc c_own c_cb].
      slot_at i HS. left; auto.
    + repeat split; auto; apply HP.
  - intros cnt i v Hpc HP. apply IB_next_multi. split; [exact HS|split; [exact HC|]].
    unfold bpc; cbn [cpc c_qm]; rewrite Hpc; exact HP.
  - intros r i best Hpc HP. destruct (i <? ns).
    + cbv zeta. destruct (is_invalid (cb s i)) eqn:E.
      * repeat split; auto; apply (unused_invalid _ E).
      * split; [exact HS|split; [exact HC|]]. apply scan_oldest_unused, HP.
    + destruct best as [[j v]|]; [repeat split; auto; apply HP|apply IB_next_single, HI].
  - intros r i v Hpc HP. destruct (cb s i =? v)%N eqn:E; [|apply IB_next_single, HI].
    apply N.eqb_eq in E. subst v.
    assert (R : bref s i = 0) by (refine (bslot_unused _ _ _ _ _ _ _ _ _ HP (HS i)); lia).
    split; [|split; [exact HC|exact I]]. cbn [cown cb bref cdata pubv c_pc c_own c_cb].
    slot_at i HS. left; auto.
  - intros i t Hpc [HO Ht]. cbv zeta.
    assert (HS' : forall j, bslot nr n (fupd (cown s) i false j) (fupd (cb s) i (mk_status t 0) j)
              (bref s j) (cdata s j) (fupd (pubv s) i (cdata s i) j)).
    { slot_at i HS. destruct (HS i) as [(_ & _ & R)|[(A & _)|(A & _)]]; try congruence.
      right; right. rewrite R. repeat split; auto; [lia|]. exists t. split; [exact Ht|].
      apply mk_status_word; lia. }
    destruct (ignore s); (split; [exact HS'|split; [exact HC|exact I]]).
  - intros i t Hpc _. split; [exact HS|split; [exact HC|exact I]].
  - intros i Hpc _. destruct (is_in_writing (cb s i)) eqn:E.
    + split; [exact HS|split; [exact HC|]]. apply is_in_writing_true, E.
    + destruct (ignore s); split; auto; split; auto; exact I.
  - intros i Hpc HW. cbv zeta.
    assert (HS' : forall j, bslot nr n (fupd (cown s) i false j) (fupd (cb s) i INVALID_EVENT j)
              (bref s j) (cdata s j) (pubv s j)).
    { slot_at i HS. destruct (HS i) as [(_ & _ & R)|[(_ & A & _)|(_ & Hle & _ & t & Ht & A)]].
      - right; left. rewrite R. auto.
      - rewrite HW in A. discriminate A.
      - rewrite HW in A. exfalso. assert (N.of_nat (bref s i) < two32)%N by lia.
        pose proof (word_not_writing t (N.of_nat (bref s i)) ltac:(lia) ltac:(lia)) as W.
        rewrite <- A in W. discriminate W. }
    destruct (ignore s); (split; [exact HS'|split; [exact HC|exact I]]).
  - intros i Hpc _. destruct (is_in_writing (qm s i)); repeat split; auto.
  - intros i Hpc _. repeat split; auto.
  - intros Hpc _. exact HI.
  - intros i Hpc _. destruct (i <? ns); [|repeat split; auto].
    destruct (is_in_writing (qm s i)); repeat split; auto.
  - intros i Hpc _. destruct (qm s i =? IN_WRITING)%N; repeat split; auto.
    unfold bpc; cbn [cpc c_term]; rewrite Hpc; exact I.
  - intros i Hpc _. destruct (i <? ns).
    + destruct (is_in_writing (cb s i)); repeat split; auto.
    + split; [exact HS|split; [exact HC|]]. cbn. unfold INVALID_TIMESTAMP. lia.
  - intros i Hpc _. destruct (cb s i =? IN_WRITING)%N eqn:E.
    + apply N.eqb_eq in E. split; [|split; [exact HC|exact I]].
      cbn [cown cb bref cdata pubv c_pc c_own c_cb]. slot_at i HS.
      destruct (HS i) as [(_ & _ & R)|[(_ & A & _)|(_ & Hle & _ & t & Ht & A)]].
      * right; left; auto.
      * rewrite E in A. discriminate A.
      * pose proof (word_not_writing t (N.of_nat (bref s i)) ltac:(lia) ltac:(lia)) as W.
        rewrite <- A, E in W. discriminate W.
    + repeat split; auto. unfold bpc; cbn [cpc c_term]; rewrite Hpc; exact I.
  - intros i acc Hpc HA. destruct (i <? ns).
    + split; [exact HS|split; [exact HC|]]. unfold bpc. cbn [cpc c_pc].
      refine (latest_acc_le _ _ _ _ _ _ _ _ _ _ HA (HS i)); lia.
    + split; [exact HS|split; [exact HA|exact I]].
Qed.

Lemma IB_mono n m s : (n <= m)%N -> IB nr n s -> IB nr m s.
Proof.
  intros H (HS & HC & HP). split; [intros i; exact (bslot_mono _ _ _ _ _ _ _ _ H (HS i))|].
  split; [lia|]. unfold bpc in *. destruct (cpc s); auto; try lia.
  destruct HP as [? ?]; split; auto; lia.
Qed.

Lemma idle_true s : idle s = true -> cpc s = GIdle.
Proof. unfold idle. destruct (cpc s); congruence. Qed.

Lemma IB_step n s l :
  (n + is_send l < two32 - 1)%N -> IB nr n s -> IB nr (n + is_send l) (cstep ns nr s l).
Proof.
  intros Hn HI0. assert (HI : IB nr (n + is_send l) s) by (revert HI0; apply IB_mono; lia).
  pose proof HI as (HS & HC & HP).
  destruct l; cbn [cstep is_send] in *; try rewrite N.add_0_r in *.
  - destruct (term s); [exact HI|]. destruct (idle s); [|exact HI].
    destruct (ignore s); repeat split; auto.
  - destruct (term s); [exact HI|]. destruct (idle s) eqn:EI; cbn [andb]; [|exact HI].
    destruct (cown s i) eqn:EO; [|exact HI].
    split; [|split; [exact HC|exact HP]]. cbn [cown cb bref cdata pubv c_data].
    slot_at i HS. destruct (HS i) as [A|[(A & _)|(A & _)]]; try congruence. left; exact A.
  - destruct (term s); [exact HI|]. destruct (idle s) eqn:EI; cbn [andb]; [|exact HI].
    destruct (cown s i) eqn:EO; [|exact HI].
    destruct HI0 as (_ & HC0 & _). cbv zeta. rewrite N.mod_small by lia.
    split; [exact HS|split; [cbn; lia|]]. unfold bpc; cbn. split; [exact EO|lia].
  - destruct (term s); [exact HI|]. destruct (idle s && cown s i); [|exact HI]. repeat split; auto.
  - destruct (term s); [exact HI|]. apply IB_gstep; auto.
  - destruct (term s); [exact HI|]. repeat split; auto.
  - destruct (term s); [exact HI|]. destruct (cpc s); auto. repeat split; auto.
  - destruct (_ && _); [|exact HI]. repeat split; auto.
  - destruct (qref s i); [exact HI|]. repeat split; auto.
  - destruct (is_invalid (cb s i)) eqn:E1; [rewrite andb_false_r; cbn [andb]; exact HI|].
    destruct (is_in_writing (cb s i)) eqn:E2; [rewrite !andb_false_r; cbn [andb]; exact HI|].
    destruct (bref s i <? nr) eqn:E3; [|rewrite !andb_false_r; exact HI].
    destruct (i <? ns); cbn [andb negb]; [|exact HI].
    apply Nat.ltb_lt in E3.
    split; [|split; [exact HC|]].
    + cbn [cown cb bref cdata pubv c_bref c_cb]. slot_at i HS.
      destruct (HS i) as [(_ & A & _)|[(_ & A & _)|(A & Hle & D & t & Ht & W)]].
      * rewrite A in E2; discriminate E2.
      * rewrite A in E1; discriminate E1.
      * right; right. repeat split; auto. exists t. split; [exact Ht|].
        rewrite W, word_inc by lia. f_equal. lia.
    + unfold bpc in *. cbn [cpc c_bref c_cb cown cb].
      destruct (cpc s); auto. rewrite fupd_neq; [exact HP|].
      intros ->. rewrite HP in E2. discriminate E2.
  - destruct (bref s i) as [|k] eqn:EB; [exact HI|].
    split; [|split; [exact HC|]].
    + cbn [cown cb bref cdata pubv c_bref c_cb]. slot_at i HS.
      destruct (HS i) as [(_ & _ & A)|[(_ & _ & A)|(A & Hle & D & t & Ht & W)]]; try lia.
      right; right. repeat split; auto; [lia|]. exists t. split; [exact Ht|].
      rewrite W, word_dec by lia. f_equal. lia.
    + unfold bpc in *. cbn [cpc c_bref c_cb cown cb].
      destruct (cpc s); auto. rewrite fupd_neq; [exact HP|].
      intros ->. destruct (HS i) as [(_ & _ & A)|[(_ & _ & A)|(A & Hle & D & t & Ht & W)]]; try lia.
      pose proof (word_not_writing t (N.of_nat (bref s i)) ltac:(lia) ltac:(lia)) as X.
      rewrite <- W, HP in X. discriminate X.
  - repeat split; auto.
Qed.

Definition csends (ls : list clabel) : N := fold_right (fun l a => (is_send l + a)%N) 0%N ls.

Lemma IB_run ls : forall n s, (n + csends ls < two32 - 1)%N -> IB nr n s ->
  IB nr (n + csends ls) (crun ns nr s ls).
Proof.
  induction ls as [|l ls IH]; cbn [csends fold_right crun fold_left]; intros n s Hn HI.
  - rewrite N.add_0_r. exact HI.
  - change (fold_right (fun (l0 : clabel) (a : N) => (is_send l0 + a)%N) 0%N ls) with (csends ls) in *.
    rewrite N.add_assoc. apply IH; [lia|]. apply IB_step; [lia|exact HI].
Qed.

Lemma IB_init : IB nr 0 cinit.
Proof. split; [intros i; right; left; auto|]. split; [cbn; unfold INVALID_TIMESTAMP; lia|exact I]. Qed.

Lemma IB_reach ls : (csends ls < two32 - 1)%N -> IB nr (csends ls) (crun ns nr cinit ls).
Proof. intros H. apply (IB_run ls 0 cinit); [lia|apply IB_init]. Qed.
End B.
