(** C37: looking up a region while the set of regions changes. *)
From Verif Require Import RegionVerModel RegionProps.
Local Open Scope Z_scope.

(** * Specification *)

(** any interleaving of the writer with the readers 0 .. nR-1 in which the process did not terminate *)
Inductive vreach (nR : nat) : vst -> Prop :=
| vr_init : vreach nR vinit
| vr_step : forall s l s', vreach nR s -> (forall r, l = LLookup r \/ l = LReader r -> (r < nR)%nat) ->
    vstep s l = Next s' -> vreach nR s'.

(** the set of regions after the first [n] operations of the writer *)
Definition set_after (s : vst) (n : nat) : option regions := rrun [] (firstn n (ops s)).

(** * Invariant *)
Definition good (s : vst) (st v : nat) : Prop :=
  exists n l, (st <= n <= length (ops s))%nat /\ maps s v = Some l /\ set_after s n = Some l.
Definition valid (s : vst) (v : nat) : Prop := rc s v < INVALID_START.
Definition holds (s : vst) (v r : nat) : bool := match rd s r with RHold _ u => (u =? v)%nat | _ => false end.
Definition holders (nR : nat) (s : vst) (v : nat) : nat := countb (holds s v) nR.

Record Inv (nR : nat) (s : vst) : Prop := {
  i_lat : (latest s < VERSION_COUNT)%nat /\ valid s (latest s) /\
          exists l, maps s (latest s) = Some l /\ set_after s (ndone s) = Some l;
  i_cnt : forall v, (v < VERSION_COUNT)%nat ->
          (0 <= rc s v < INVALID_START /\ rc s v = Z.of_nat (holders nR s v)) \/
          (INVALID_START <= rc s v <= INVALID_END /\ holders nR s v = 0%nat);
  i_len : match wr s with WIdle => ndone s = length (ops s) | _ => length (ops s) = S (ndone s) end;
  i_wr : match wr s with
         | WIdle => True
         | WScan _ k => (1 <= k)%nat
         | WCas _ _ v => (v < VERSION_COUNT)%nat /\ v <> latest s
         | WTake v | WCopy v => (v < VERSION_COUNT)%nat /\ v <> latest s /\ ~ valid s v
         | WStore v => (v < VERSION_COUNT)%nat /\ v <> latest s /\ ~ valid s v /\
                       exists l, maps s v = Some l /\ rrun [] (ops s) = Some l
         | WLatest v => (v < VERSION_COUNT)%nat /\ valid s v /\
                       exists l, maps s v = Some l /\ rrun [] (ops s) = Some l
         end;
  i_rd : forall r, match rd s r with
         | RIdle => True
         | RLoad st _ => (st <= ndone s)%nat
         | RInc st _ v => (v < VERSION_COUNT)%nat /\ (st <= ndone s)%nat /\ (valid s v -> good s st v)
         | RHold st v => (v < VERSION_COUNT)%nat /\ valid s v /\ good s st v
         end }.

Lemma rrun_app l os o l' : rrun l os = Some l' -> rrun l (os ++ [o]) = rstep l' o.
Proof.
  revert l. induction os as [|a os IH]; cbn [rrun app]; intros l E.
  - injection E as ->. destruct (rstep l' o); reflexivity.
  - destruct (rstep l a); [apply IH; exact E|discriminate].
Qed.

Lemma Inv_init nR : Inv nR vinit.
Proof.
  assert (H0 : forall v, holders nR vinit v = 0%nat) by (intros; apply countb_zero; reflexivity).
  constructor; cbn [vinit latest rc wr rd ops ndone maps].
  - split; [unfold VERSION_COUNT; lia|]. split; [reflexivity|]. exists []. split; reflexivity.
  - intros v _. rewrite H0. destruct (v =? 0)%nat; [left|right]; vm_compute; repeat split; congruence.
  - reflexivity.
  - exact I.
  - intros r; exact I.
Qed.

Lemma nR_hold nR s st v : Inv nR s -> (exists r, (r < nR)%nat /\ rd s r = RHold st v) ->
  (0 < holders nR s v)%nat.
Proof.
  intros _ (r & L & E). apply (countb_pos _ _ r L). unfold holds. rewrite E. apply Nat.eqb_refl.
Qed.

(** readers outside 0 .. nR-1 never start *)
Definition idle_rest (nR : nat) (s : vst) : Prop := forall r, (nR <= r)%nat -> rd s r = RIdle.

Lemma good_same s s' st v : ops s' = ops s -> maps s' v = maps s v -> good s st v -> good s' st v.
Proof. unfold good, set_after. intros -> ->. auto. Qed.

Lemma set_after_all s : set_after s (length (ops s)) = rrun [] (ops s).
Proof. unfold set_after. rewrite firstn_all. reflexivity. Qed.

Lemma firstn_pre {A} n (l : list A) x : (n <= length l)%nat -> firstn n (l ++ [x]) = firstn n l.
Proof. intros H. rewrite firstn_app. replace (n - length l)%nat with 0%nat by lia. cbn. apply app_nil_r. Qed.

Lemma good_call s o st v : good s st v -> good (v_call s o) st v.
Proof.
  intros (n & l & L & M & R). exists n, l. cbn [v_call ops maps]. rewrite app_length. split; [lia|]. split; [exact M|].
  unfold set_after. cbn [ops v_call]. rewrite firstn_pre by lia. exact R.
Qed.

(** the writer's version is held by nobody *)
Lemma not_held nR s v : Inv nR s -> idle_rest nR s -> (v < VERSION_COUNT)%nat -> ~ valid s v ->
  forall r st, rd s r <> RHold st v.
Proof.
  intros H _ L NV r st E. pose proof (i_rd _ _ H r) as Q. rewrite E in Q. destruct Q as (_ & V & _). contradiction.
Qed.

Lemma holders_ext nR s s' v : (forall r, rd s' r = rd s r) -> holders nR s' v = holders nR s v.
Proof. intros E. apply countb_ext. intros r _. unfold holds. rewrite E. reflexivity. Qed.

Lemma Inv_wr nR s w :
  Inv nR s -> wr s <> WIdle -> w <> WIdle ->
  (match w with
         | WIdle => True
         | WScan _ k => (1 <= k)%nat
         | WCas _ _ v => (v < VERSION_COUNT)%nat /\ v <> latest s
         | WTake v | WCopy v => (v < VERSION_COUNT)%nat /\ v <> latest s /\ ~ valid s v
         | WStore v => (v < VERSION_COUNT)%nat /\ v <> latest s /\ ~ valid s v /\
                       exists l, maps s v = Some l /\ rrun [] (ops s) = Some l
         | WLatest v => (v < VERSION_COUNT)%nat /\ valid s v /\
                       exists l, maps s v = Some l /\ rrun [] (ops s) = Some l
         end) -> Inv nR (v_wr s w).
Proof.
  intros H N1 N2 W. constructor; [exact (i_lat _ _ H)|exact (i_cnt _ _ H)| |exact W|exact (i_rd _ _ H)].
  pose proof (i_len _ _ H) as L. cbn [wr v_wr ndone ops]. destruct (wr s); try contradiction; destruct w; try contradiction; exact L.
Qed.

(** changing the map of a version that is not valid and not the latest *)
Lemma Inv_maps nR s v m : Inv nR s -> v <> latest s -> ~ valid s v ->
  match wr s with WStore _ | WLatest _ => False | _ => True end -> Inv nR (v_maps s v m).
Proof.
  intros H NL NV W. constructor; cbn [v_maps latest rc wr rd ops ndone maps].
  - destruct (i_lat _ _ H) as (A & B & l & C & D). split; [exact A|]. split; [exact B|]. exists l. rewrite fupd_neq by congruence. auto.
  - exact (i_cnt _ _ H).
  - exact (i_len _ _ H).
  - pose proof (i_wr _ _ H) as Q. destruct (wr s); try contradiction; exact Q.
  - intros r. pose proof (i_rd _ _ H r) as Q.
    assert (G : forall st u, valid s u -> good s st u -> good (v_maps s v m) st u).
    { intros st u V. apply good_same; [reflexivity|]. cbn. apply fupd_neq. intros ->. contradiction. }
    destruct (rd s r); auto.
    + destruct Q as (A & B & C). split; [exact A|]. split; [exact B|]. intros V. apply G; auto.
    + destruct Q as (A & B & C). split; [exact A|]. split; [exact B|]. apply G; auto.
Qed.

Lemma last_app {A} (l : list A) d : l <> [] -> exists l' x, l = l' ++ [x] /\ last l d = x.
Proof. intros N. destruct (exists_last N) as (l' & x & ->). exists l', x. split; [reflexivity|apply last_last]. Qed.

(** the operation in progress, applied to the latest set *)
Lemma in_progress nR s l : Inv nR s -> wr s <> WIdle -> maps s (latest s) = Some l ->
  rrun [] (ops s) = rstep l (last (ops s) RClear) /\ set_after s (ndone s) = Some l.
Proof.
  intros H NI M. pose proof (i_len _ _ H) as L. destruct (i_lat _ _ H) as (_ & _ & l0 & M' & R).
  rewrite M in M'. injection M' as <-. split; [|exact R].
  assert (LE : length (ops s) = S (ndone s)) by (destruct (wr s); try contradiction; exact L).
  destruct (last_app (ops s) RClear) as (l' & x & E & ->); [destruct (ops s); [discriminate|congruence]|].
  unfold set_after in R. rewrite E in R, LE |- *. rewrite app_length in LE. cbn in LE.
  rewrite firstn_pre in R by lia. replace (ndone s) with (length l') in R by lia. rewrite firstn_all in R.
  apply rrun_app. exact R.
Qed.

Lemma Inv_return nR s : Inv nR s ->
  (exists l, maps s (latest s) = Some l /\ rrun [] (ops s) = Some l) -> Inv nR (v_return s).
Proof.
  intros H (l & M & R). constructor; cbn [v_return latest rc wr rd ops ndone maps].
  - destruct (i_lat _ _ H) as (A & B & _). split; [exact A|]. split; [exact B|]. exists l. split; [exact M|].
    unfold set_after. cbn [ops v_return]. rewrite firstn_all. exact R.
  - exact (i_cnt _ _ H).
  - reflexivity.
  - exact I.
  - intros r. pose proof (i_rd _ _ H r) as Q. pose proof (i_len _ _ H) as L.
    assert (ndone s <= length (ops s))%nat by (destruct (wr s); lia).
    destruct (rd s r); auto; [lia|]. destruct Q as (A & B & C). split; [exact A|]. split; [lia|exact C].
Qed.

Lemma Inv_wstep nR s sp s' : Inv nR s -> idle_rest nR s -> wstep s sp = Next s' -> Inv nR s'.
Proof.
  intros H IR E. unfold wstep in E. pose proof (i_wr _ _ H) as W.
  destruct (i_lat _ _ H) as (LA & VL & l & ML & RL).
  revert E W. case_eq (wr s).
  - intros _ E _. injection E as <-. exact H.
  - intros rt k EW E W. destruct (Nat.leb_spec VERSION_COUNT k).
    + destruct (WRITE_RETRIES <=? S rt)%nat; [discriminate|]. injection E as <-.
      apply Inv_wr; auto; [congruence|discriminate].
    + set (v := ((k + latest s) mod VERSION_COUNT)%nat) in *.
      assert (V1 : (v < VERSION_COUNT)%nat) by (apply Nat.mod_upper_bound; discriminate).
      assert (V2 : v <> latest s).
      { unfold v. intros X. destruct (Nat.lt_ge_cases (k + latest s) VERSION_COUNT) as [Y|Y].
        - rewrite Nat.mod_small in X by exact Y. lia.
        - assert (Z : ((k + latest s) mod VERSION_COUNT = k + latest s - VERSION_COUNT)%nat).
          { replace (k + latest s)%nat with ((k + latest s - VERSION_COUNT) + 1 * VERSION_COUNT)%nat at 1 by lia.
            rewrite Nat.mod_add by discriminate. apply Nat.mod_small. lia. }
          lia. }
      destruct (rc s v =? 0); [injection E as <-; apply Inv_wr; auto; [congruence|discriminate]|].
      destruct (Z.eqb_spec (rc s v) INITIAL) as [Q|Q]; injection E as <-; apply Inv_wr; auto; try congruence; try discriminate.
      split; [exact V1|]. split; [exact V2|]. unfold valid. rewrite Q. unfold INITIAL. lia.
  - intros rt k v EW E W. destruct W as [V1 V2].
    destruct (Z.eqb_spec (rc s v) 0) as [Q|Q]; cbn [andb] in E; [destruct sp; cbn [negb] in E|].
    + injection E as <-; apply Inv_wr; auto; try congruence; try discriminate. lia.
    + injection E as <-.
      destruct (i_cnt _ _ H v V1) as [[_ C]|[C _]]; [|exfalso; rewrite Q in C; vm_compute in C; destruct C; congruence].
      assert (HZ : holders nR s v = 0%nat) by lia.
      assert (NH : forall r st, rd s r <> RHold st v).
      { intros r st X. assert (r < nR)%nat by (destruct (Nat.lt_ge_cases r nR); [assumption|rewrite IR in X by assumption; discriminate]).
        pose proof (nR_hold nR s st v H (ex_intro _ r (conj H0 X))). lia. }
      assert (NV : ~ valid (v_rc s v INVALID_START) v) by (unfold valid; cbn; rewrite fupd_eq; lia).
      constructor; cbn [v_rc v_wr latest rc wr rd ops ndone maps].
      * split; [exact LA|]. split; [unfold valid; cbn; rewrite fupd_neq by congruence; exact VL|]. eauto.
      * intros u U. destruct (Nat.eq_dec u v) as [->|N].
        -- right. rewrite fupd_eq. split; [vm_compute; split; congruence|exact HZ].
        -- rewrite fupd_neq by exact N. exact (i_cnt _ _ H u U).
      * pose proof (i_len _ _ H) as L. rewrite EW in L. exact L.
      * split; [exact V1|]. split; [exact V2|exact NV].
      * intros r. pose proof (i_rd _ _ H r) as R. specialize (NH r). destruct (rd s r); auto.
        -- destruct R as (A & B & D). split; [exact A|]. split; [exact B|]. intros V. destruct (Nat.eq_dec v0 v) as [->|N]; [contradiction|].
           unfold valid in V. cbn in V. rewrite fupd_neq in V by exact N. destruct (D V) as (n & l0 & G). exists n, l0. exact G.
        -- destruct R as (A & B & D). split; [exact A|]. destruct (Nat.eq_dec v0 v) as [->|N]; [destruct (NH st); reflexivity|].
           split; [unfold valid; cbn; rewrite fupd_neq by exact N; exact B|]. destruct D as (n & l0 & G). exists n, l0. exact G.
    + injection E as <-; apply Inv_wr; auto; try congruence; try discriminate. lia.
  - intros v EW E W. destruct W as (V1 & V2 & NV). injection E as <-.
    assert (H1 : Inv nR (v_maps s v None)) by (apply Inv_maps; auto; rewrite EW; exact I).
    apply Inv_wr; auto; try (cbn; congruence).
  - intros v EW E W. destruct W as (V1 & V2 & NV).
    destruct (in_progress nR s l H ltac:(congruence) ML) as [RP RL'].
    assert (H1 : forall m, Inv nR (v_maps s v m)) by (intros; apply Inv_maps; auto; rewrite EW; exact I).
    assert (PUB : forall m, rrun [] (ops s) = Some m -> Inv nR (v_wr (v_maps s v (Some m)) (WStore v))).
    { intros m R. apply Inv_wr; auto; try (cbn; congruence).
      split; [exact V1|]. split; [exact V2|]. split; [exact NV|]. exists m. cbn. rewrite fupd_eq. auto. }
    rewrite ML in E. destruct (last (ops s) RClear) as [lo hi|lo|]; cbn [rstep] in RP.
    + unfold UpdateKnownRegion in RP. destruct (has_start lo l); [discriminate|].
      destruct (overlaps_neighbours lo hi (ins lo hi l)); injection E as <-.
      * apply Inv_return; [apply H1|]. exists l. cbn. rewrite fupd_neq by congruence. auto.
      * apply PUB. exact RP.
    + unfold RemoveKnownRegion in RP. destruct (has_start lo l); [|discriminate]. injection E as <-. apply PUB. exact RP.
    + injection E as <-. apply PUB. exact RP.
  - intros v EW E W. destruct W as (V1 & V2 & NV & m & M & R). injection E as <-.
    destruct (i_cnt _ _ H v V1) as [[C _]|[_ HZ]]; [unfold valid in NV; lia|].
    pose proof (not_held nR s v H IR V1 NV) as NH.
    pose proof (i_len _ _ H) as L. rewrite EW in L.
    constructor; cbn [v_rc v_wr latest rc wr rd ops ndone maps].
    + split; [exact LA|]. split; [unfold valid; cbn; rewrite fupd_neq by congruence; exact VL|]. eauto.
    + intros u U. destruct (Nat.eq_dec u v) as [->|N].
      * left. rewrite fupd_eq. split; [vm_compute; split; congruence|]. 
        change (0 = Z.of_nat (holders nR s v)). rewrite HZ. reflexivity.
      * rewrite fupd_neq by exact N. exact (i_cnt _ _ H u U).
    + exact L.
    + split; [exact V1|]. split; [unfold valid; cbn; rewrite fupd_eq; reflexivity|]. eauto.
    + intros r. pose proof (i_rd _ _ H r) as Q. specialize (NH r). destruct (rd s r); auto.
      * destruct Q as (A & B & C). split; [exact A|]. split; [exact B|]. intros V. destruct (Nat.eq_dec v0 v) as [->|N].
        -- exists (length (ops s)), m. split; [cbn; lia|]. split; [exact M|]. unfold set_after. cbn [ops v_rc v_wr]. rewrite firstn_all. exact R.
        -- unfold valid in V. cbn in V. rewrite fupd_neq in V by exact N. destruct (C V) as (n & l0 & G). exists n, l0. exact G.
      * destruct Q as (A & B & C). split; [exact A|]. destruct (Nat.eq_dec v0 v) as [->|N]; [destruct (NH st); reflexivity|].
        split; [unfold valid; cbn; rewrite fupd_neq by exact N; exact B|]. destruct C as (n & l0 & G). exists n, l0. exact G.
  - intros v EW E W. destruct W as (V1 & V2 & m & M & R). injection E as <-.
    pose proof (i_len _ _ H) as L. rewrite EW in L.
    constructor; cbn [v_latest v_return latest rc wr rd ops ndone maps].
    + split; [exact V1|]. split; [exact V2|]. exists m. split; [exact M|]. unfold set_after. cbn [ops v_return v_latest]. rewrite firstn_all. exact R.
    + exact (i_cnt _ _ H).
    + reflexivity.
    + exact I.
    + intros r. pose proof (i_rd _ _ H r) as Q. destruct (rd s r); auto; [lia|].
      destruct Q as (A & B & C). split; [exact A|]. split; [lia|exact C].
Qed.

Lemma holders_set nR s r p c v u : (r < nR)%nat ->
  (holders nR (v_rd (v_rc s u c) r p) v + (if holds s v r then 1 else 0) =
  holders nR s v + (match p with RHold _ w => if (w =? v)%nat then 1 else 0 | _ => 0 end))%nat.
Proof.
  intros L. unfold holders.
  rewrite (countb_change (holds s v) (holds (v_rd (v_rc s u c) r p) v) nR r L).
  - f_equal. unfold holds. cbn. rewrite fupd_eq. destruct p; reflexivity.
  - intros j _ N. unfold holds. cbn. rewrite fupd_neq by exact N. reflexivity.
Qed.

Lemma holders_set' nR s r p v : (r < nR)%nat ->
  (holders nR (v_rd s r p) v + (if holds s v r then 1 else 0) =
  holders nR s v + (match p with RHold _ w => if (w =? v)%nat then 1 else 0 | _ => 0 end))%nat.
Proof. intros L. rewrite <- (holders_set nR s r p 0 v 0 L). reflexivity. Qed.

Lemma Inv_rstep nR s r s' : Inv nR s -> (r < nR)%nat -> rstep1 s r = Next s' -> Inv nR s'.
Proof.
  intros H L E. unfold rstep1 in E. pose proof (i_rd _ _ H r) as Q.
  destruct (i_lat _ _ H) as (LA & VL & l & ML & RL). pose proof (i_len _ _ H) as LEN.
  assert (ND : (ndone s <= length (ops s))%nat) by (destruct (wr s); lia).
  revert E Q. case_eq (rd s r).
  - intros _ E _. injection E as <-. exact H.
  - intros st rt ER E Q. destruct (READ_RETRIES <=? rt)%nat; [discriminate|]. injection E as <-.
    constructor; cbn [v_rd latest rc wr rd ops ndone maps]; try (exact (i_lat _ _ H) || exact (i_len _ _ H) || exact (i_wr _ _ H)).
    + intros v V. pose proof (holders_set' nR s r (RInc st rt (latest s)) v L) as Y.
      assert (holds s v r = false) as X by (unfold holds; rewrite ER; reflexivity). rewrite X in Y.
      replace (holders nR (v_rd s r (RInc st rt (latest s))) v) with (holders nR s v) by lia. exact (i_cnt _ _ H v V).
    + intros r'. destruct (Nat.eq_dec r' r) as [->|N]; [rewrite fupd_eq|rewrite fupd_neq by exact N; exact (i_rd _ _ H r')].
      split; [exact LA|]. split; [exact Q|]. intros _. exists (ndone s), l. split; [cbn [ops v_rd]; lia|]. split; [exact ML|exact RL].
  - intros st rt v ER E (V1 & SD & G).
    assert (HV : forall u, holds s u r = false) by (intros; unfold holds; rewrite ER; reflexivity).
    destruct (Z.eqb_spec (rc s v) (INVALID_START - 1)) as [Q1|Q1]; [discriminate|].
    destruct (Z.eqb_spec (rc s v) INVALID_END) as [Q2|Q2]; [discriminate|]. cbn [orb] in E.
    pose proof (i_cnt _ _ H v V1) as C.
    assert (BND : 0 <= rc s v < 4294967295).
    { change INVALID_END with 4294967295 in *. change INVALID_START with 2147483647 in *. lia. }
    rewrite (Z.mod_small (rc s v + 1)) in E by lia.
    set (acq := rc s v <? INVALID_START - 1) in *.
    assert (VAL : forall u, valid (v_rd (v_rc s v (rc s v + 1)) r (if acq then RHold st v else RLoad st (S rt))) u <-> valid s u).
    { intros u. unfold valid. cbn. destruct (Nat.eq_dec u v) as [->|N]; [rewrite fupd_eq|rewrite fupd_neq by exact N; tauto].
      change INVALID_START with 2147483647 in *. lia. }
    assert (E' : s' = v_rd (v_rc s v (rc s v + 1)) r (if acq then RHold st v else RLoad st (S rt))).
    { destruct acq; injection E as <-; reflexivity. }
    subst s'. clear E. constructor.
    + split; [exact LA|]. split; [apply VAL; exact VL|]. exists l. split; [exact ML|exact RL].
    + intros u U. pose proof (holders_set nR s r (if acq then RHold st v else RLoad st (S rt)) (rc s v + 1) u v L) as Y.
      rewrite HV in Y. cbn [v_rd v_rc rc]. destruct (Nat.eq_dec u v) as [->|N].
      * rewrite fupd_eq. clear VAL. remember (holders nR (v_rd _ _ _) v) as h' eqn:Eh. clear Eh.
        change INVALID_START with 2147483647 in *. change INVALID_END with 4294967295 in *.
        unfold acq in Y. clear acq. revert Y. destruct (Z.ltb_spec (rc s v) (2147483647 - 1)); cbn [Nat.add]; rewrite ?Nat.eqb_refl; intros Y; clear - Y C H0 Q1 Q2; lia.
      * rewrite fupd_neq by exact N.
        replace (holders nR _ u) with (holders nR s u); [exact (i_cnt _ _ H u U)|].
        destruct acq; [destruct (Nat.eqb_spec v u); [congruence|]|]; lia.
    + exact (i_len _ _ H).
    + pose proof (i_wr _ _ H) as W. cbn [wr v_rd v_rc latest maps ops]. destruct (wr s); auto; rewrite VAL; exact W.
    + intros r'. cbn [rd v_rd v_rc]. destruct (Nat.eq_dec r' r) as [->|N].
      * rewrite fupd_eq. unfold acq in *. destruct (Z.ltb_spec (rc s v) (INVALID_START - 1)).
        -- assert (valid s v) by (unfold valid; lia). split; [exact V1|]. split; [apply VAL; assumption|].
           destruct (G H1) as (n & m & X). exists n, m. exact X.
        -- exact SD.
      * rewrite fupd_neq by exact N. pose proof (i_rd _ _ H r') as Q. destruct (rd s r'); auto.
        -- destruct Q as (A & B & D). split; [exact A|]. split; [exact B|]. intros X. apply VAL in X. destruct (D X) as (n & m & Y). exists n, m. exact Y.
        -- destruct Q as (A & B & D). split; [exact A|]. split; [apply VAL; exact B|]. destruct D as (n & m & Y). exists n, m. exact Y.
  - intros st v ER E (V1 & VV & n & m & LN & M & R). rewrite M in E. injection E as <-.
    assert (HV : forall u, holds s u r = (v =? u)%nat) by (intros; unfold holds; rewrite ER; reflexivity).
    assert (HP : (0 < holders nR s v)%nat) by (eapply nR_hold; eauto).
    destruct (i_cnt _ _ H v V1) as [[B C]|[_ C]]; [|lia].
    rewrite Z.mod_small by (change INVALID_START with 2147483647 in *; lia).
    assert (VAL : forall u, valid (v_rd (v_rc s v (rc s v - 1)) r RIdle) u <-> valid s u).
    { intros u. unfold valid in *. cbn. destruct (Nat.eq_dec u v) as [->|N]; [rewrite fupd_eq; lia|rewrite fupd_neq by exact N; tauto]. }
    constructor.
    + split; [exact LA|]. split; [apply VAL; exact VL|]. exists l. split; [exact ML|exact RL].
    + intros u U. pose proof (holders_set nR s r RIdle (rc s v - 1) u v L) as Y. rewrite HV in Y.
      cbn [v_rd v_rc rc]. destruct (Nat.eq_dec u v) as [->|N].
      * rewrite fupd_eq. rewrite Nat.eqb_refl in Y. left. change INVALID_START with 2147483647 in *. lia.
      * rewrite fupd_neq by exact N. destruct (Nat.eqb_spec v u); [congruence|].
        replace (holders nR _ u) with (holders nR s u) by lia. exact (i_cnt _ _ H u U).
    + exact (i_len _ _ H).
    + pose proof (i_wr _ _ H) as W. cbn [wr v_rd v_rc latest maps ops]. destruct (wr s); auto; rewrite VAL; exact W.
    + intros r'. cbn [rd v_rd v_rc]. destruct (Nat.eq_dec r' r) as [->|N]; [rewrite fupd_eq; exact I|].
      rewrite fupd_neq by exact N. pose proof (i_rd _ _ H r') as Q. destruct (rd s r'); auto.
      * destruct Q as (A & B' & D). split; [exact A|]. split; [exact B'|]. intros X. apply VAL in X. destruct (D X) as (n' & m' & Y). exists n', m'. exact Y.
      * destruct Q as (A & B' & D). split; [exact A|]. split; [apply VAL; exact B'|]. destruct D as (n' & m' & Y). exists n', m'. exact Y.
Qed.

Lemma Inv_call nR s o : Inv nR s -> wr s = WIdle -> Inv nR (v_call s o).
Proof.
  intros H EW. destruct (i_lat _ _ H) as (LA & VL & l & ML & RL). pose proof (i_len _ _ H) as LEN. rewrite EW in LEN.
  constructor; cbn [v_call latest rc wr rd ops ndone maps].
  - split; [exact LA|]. split; [exact VL|]. exists l. split; [exact ML|]. unfold set_after in *. cbn [ops v_call].
    rewrite firstn_pre by lia. exact RL.
  - exact (i_cnt _ _ H).
  - rewrite app_length. cbn. lia.
  - lia.
  - intros r. pose proof (i_rd _ _ H r) as Q. destruct (rd s r); auto.
    + destruct Q as (A & B & C). split; [exact A|]. split; [exact B|]. intros V. apply good_call. apply C. exact V.
    + destruct Q as (A & B & C). split; [exact A|]. split; [exact B|]. apply good_call. exact C.
Qed.

Lemma Inv_lookup nR s r : Inv nR s -> (r < nR)%nat -> rd s r = RIdle -> Inv nR (v_rd s r (RLoad (ndone s) 0)).
Proof.
  intros H L ER. constructor; cbn [v_rd latest rc wr rd ops ndone maps]; try (exact (i_lat _ _ H) || exact (i_len _ _ H) || exact (i_wr _ _ H)).
  - intros v V. pose proof (holders_set' nR s r (RLoad (ndone s) 0) v L) as Y.
    assert (holds s v r = false) as X by (unfold holds; rewrite ER; reflexivity). rewrite X in Y.
    replace (holders nR (v_rd s r (RLoad (ndone s) 0)) v) with (holders nR s v) by lia. exact (i_cnt _ _ H v V).
  - intros r'. destruct (Nat.eq_dec r' r) as [->|N]; [rewrite fupd_eq; lia|rewrite fupd_neq by exact N; exact (i_rd _ _ H r')].
Qed.

Lemma reach_inv nR s : vreach nR s -> Inv nR s /\ idle_rest nR s.
Proof.
  induction 1 as [|s l s' R [IH IR] B E]; [split; [apply Inv_init|intros r _; reflexivity]|].
  destruct l as [o|sp|r|r]; cbn [vstep] in E.
  - case_eq (wr s); intros; rewrite H in E; injection E as <-; try (split; assumption).
    split; [apply Inv_call; assumption|exact IR].
  - split; [eapply Inv_wstep; eauto|]. intros r LR. specialize (IR r LR). unfold wstep in E.
    revert E. case_eq (wr s); intros;
      repeat match type of E with
      | context [if ?b then _ else _] => destruct b
      | context [match last (ops s) RClear with _ => _ end] => destruct (last (ops s) RClear)
      | context [match maps s (latest s) with _ => _ end] => destruct (maps s (latest s))
      end; try discriminate; injection E as <-; exact IR.
  - case_eq (rd s r); intros; rewrite H in E; injection E as <-; try (split; assumption).
    assert (r < nR)%nat by (apply B; auto). split; [apply Inv_lookup; assumption|].
    intros r' LR. cbn. rewrite fupd_neq by lia. apply IR. exact LR.
  - assert (LR : (r < nR)%nat) by (apply B; auto). split; [eapply Inv_rstep; eauto|].
    intros r' LR'. specialize (IR r' LR'). unfold rstep1 in E.
    revert E. case_eq (rd s r); intros;
      repeat match type of E with
      | context [if ?b then _ else _] => destruct b
      | context [match maps s ?v with _ => _ end] => destruct (maps s v)
      end; try discriminate; injection E as <-; cbn; rewrite ?fupd_neq by lia; exact IR.
Qed.

(** * Theorems *)

(** No step of any interleaving reads a map that is being rewritten. *)
Theorem C37_never_torn : forall nR s l, vreach nR s ->
  (forall r, l = LLookup r \/ l = LReader r -> (r < nR)%nat) -> vstep s l <> Torn.
Proof.
  intros nR s l R B E. apply reach_inv in R as [H IR].
  destruct l as [o|sp|r|r]; cbn [vstep] in E.
  - destruct (wr s); discriminate.
  - destruct (i_lat _ _ H) as (_ & _ & m & M & _). unfold wstep in E. rewrite M in E.
    destruct (wr s);
      repeat match type of E with
      | context [if ?b then _ else _] => destruct b
      | context [match last (ops s) RClear with _ => _ end] => destruct (last (ops s) RClear)
      end; discriminate.
  - destruct (rd s r); discriminate.
  - pose proof (i_rd _ _ H r) as Q. unfold rstep1 in E. destruct (rd s r);
      try (repeat match type of E with context [if ?b then _ else _] => destruct b end; discriminate).
    destruct Q as (_ & _ & n & m & _ & M & _). rewrite M in E. discriminate.
Qed.

(** A lookup evaluates the complete set of regions after some number [n] of the writer's operations:
    no fewer than were completed when the lookup began, no more than have begun so far. *)
Theorem C37_lookup_sees_a_complete_set : forall nR s r st v, vreach nR s -> rd s r = RHold st v ->
  exists n set, (st <= n <= length (ops s))%nat /\ set_after s n = Some set /\
  forall p, lookup_now s r p = Some (GetBoundsFromAddress set p).
Proof.
  intros nR s r st v R E. apply reach_inv in R as [H _]. pose proof (i_rd _ _ H r) as Q. rewrite E in Q.
  destruct Q as (_ & _ & n & m & L & M & S). exists n, m. split; [exact L|]. split; [exact S|].
  intros p. unfold lookup_now. rewrite E, M. reflexivity.
Qed.

(** The evaluated set does not change under the reader's feet: no step of anyone changes the answers
    of a lookup that is in progress. *)
Theorem C37_stable_while_evaluated : forall nR s l s' r st v, vreach nR s ->
  (forall r, l = LLookup r \/ l = LReader r -> (r < nR)%nat) -> vstep s l = Next s' ->
  rd s r = RHold st v -> l <> LReader r ->
  rd s' r = RHold st v /\ forall p, lookup_now s' r p = lookup_now s r p.
Proof.
  intros nR s l s' r st v R B E HR NE. pose proof (reach_inv nR s R) as [H _].
  pose proof (i_rd _ _ H r) as Q. rewrite HR in Q. destruct Q as (V1 & VV & _).
  assert (K : rd s' r = RHold st v /\ maps s' v = maps s v).
  { destruct l as [o|sp|r'|r']; cbn [vstep] in E.
    - destruct (wr s); injection E as <-; auto.
    - unfold wstep in E. pose proof (i_wr _ _ H) as W. revert E W. case_eq (wr s); intros;
      repeat match type of E with
      | context [if ?b then _ else _] => destruct b
      | context [match last (ops s) RClear with _ => _ end] => destruct (last (ops s) RClear)
      | context [match maps s (latest s) with _ => _ end] => destruct (maps s (latest s))
      end; try discriminate; injection E as <-; (split; [exact HR|]);
      cbn [maps v_wr v_rc v_maps v_return v_latest]; try reflexivity; apply fupd_neq; intros ->; tauto.
    - assert (HH : rd s r' <> RIdle -> s' = s) by (intros N; destruct (rd s r'); congruence).
      destruct (Nat.eq_dec r' r) as [->|N]; [rewrite HH by congruence; auto|].
      destruct (rd s r'); injection E as <-; auto. split; [cbn; rewrite fupd_neq by congruence; exact HR|reflexivity].
    - assert (N : r' <> r) by congruence. unfold rstep1 in E. destruct (rd s r');
      repeat match type of E with
      | context [if ?b then _ else _] => destruct b
      | context [match maps s ?v with _ => _ end] => destruct (maps s v)
      end; try discriminate; injection E as <-; cbn; rewrite ?fupd_neq by congruence; auto. }
  destruct K as [K1 K2]. split; [exact K1|]. intros p. unfold lookup_now. rewrite K1, HR, K2. reflexivity.
Qed.

(** A lookup that began after an operation returned, with no operation in progress, answers exactly
    according to all operations so far. *)
Theorem C37_completed_operations_are_seen : forall nR s r v, vreach nR s -> rd s r = RHold (length (ops s)) v ->
  exists set, rrun [] (ops s) = Some set /\ forall p, lookup_now s r p = Some (GetBoundsFromAddress set p).
Proof.
  intros nR s r v R E. destruct (C37_lookup_sees_a_complete_set nR s r _ v R E) as (n & m & L & S & P).
  exists m. replace n with (length (ops s)) in S by lia. rewrite set_after_all in S. auto.
Qed.

(** Concrete interleaving: one registration is published; reader 0 loads version 1, the writer goes
    round all versions and rewrites version 1 meanwhile; the reader is turned away and retries. *)
Fixpoint vrun (s : vst) (ls : list vlabel) : option vst :=
  match ls with [] => Some s | l :: ls => match vstep s l with Next s' => vrun s' ls | _ => None end end.

Lemma vrun_reach nR ls : forall s s', vreach nR s ->
  Forall (fun l => match l with LLookup r | LReader r => (r < nR)%nat | _ => True end) ls ->
  vrun s ls = Some s' -> vreach nR s'.
Proof.
  induction ls as [|l ls IH]; cbn [vrun]; intros s s' R F E; [injection E as <-; exact R|].
  inversion F; subst. destruct (vstep s l) eqn:V; try discriminate. eapply IH; [|eassumption|exact E].
  eapply vr_step; [exact R| |exact V]. intros r [->| ->]; assumption.
Qed.

Definition w (k : nat) : list vlabel := repeat (LWriter false) k.
Definition script : list vlabel :=
  LCall (RAdd 100 200) :: w 5 ++ [LLookup 0; LReader 0] ++
  concat (repeat (LCall (RRemove 100) :: w 5 ++ LCall (RAdd 100 200) :: w 5) 4) ++
  (LCall (RAdd 500 600) :: w 6) ++
  [LCall (RAdd 300 400)] ++ w 3 ++ [LReader 0].

Example C37_example :
  exists s v, vrun vinit (script ++ [LReader 0; LReader 0]) = Some s /\ vreach 1 s /\
    (exists s1, vrun vinit script = Some s1 /\ rd s1 0 = RLoad 1 1 /\ maps s1 1 = None) /\
    rd s 0 = RHold 1 v /\ lookup_now s 0 150 = Some (Some (100, 200)) /\ length (ops s) = 11%nat.
Proof.
  eexists. eexists. split; [vm_compute; reflexivity|].
  split; [eapply (vrun_reach 1 (script ++ [LReader 0; LReader 0]) vinit); [constructor| |vm_compute; reflexivity]; repeat constructor|].
  split; [eexists; split; [vm_compute; reflexivity|]; split; vm_compute; reflexivity|].
  vm_compute. repeat split.
Qed.

Print Assumptions C37_never_torn.
Print Assumptions C37_lookup_sees_a_complete_set.
Print Assumptions C37_stable_while_evaluated.
Print Assumptions C37_completed_operations_are_seen.
