(** C36: looking up the region of an address. *)
From Verif Require Import RegionModel.
Local Open Scope Z_scope.

(** * Specification *)

(** A region is the half-open address range [fst r, snd r). *)
Definition covers (r : Z * Z) (p : Z) : Prop := fst r <= p < snd r.
Definition disjoint (r1 r2 : Z * Z) : Prop := forall p, ~ (covers r1 p /\ covers r2 p).

(** Registered regions are never empty. *)
Definition sane_op (o : rop) : Prop := match o with RAdd lo hi => lo < hi | _ => True end.

(** The regions a user expects to be registered: a registration counts unless it overlaps one that
    is still registered. *)
Definition expect_step (S : Z * Z -> Prop) (o : rop) : Z * Z -> Prop :=
  match o with
  | RAdd lo hi => fun r => S r \/ (r = (lo, hi) /\ forall r', S r' -> disjoint r' (lo, hi))
  | RRemove lo => fun r => S r /\ fst r <> lo
  | RClear => fun _ => False
  end.
Definition expected (os : list rop) : Z * Z -> Prop := fold_left expect_step os (fun _ => False).

(** * Proofs *)

Inductive sorted : regions -> Prop :=
| so_nil : sorted []
| so_one : forall a b, a < b -> sorted [(a, b)]
| so_cons : forall a b c d l, a < b -> b <= c -> sorted ((c, d) :: l) -> sorted ((a, b) :: (c, d) :: l).

Lemma sorted_tl r l : sorted (r :: l) -> sorted l.
Proof. inversion 1; subst; auto; constructor. Qed.

Lemma sorted_hd a b l : sorted ((a, b) :: l) -> a < b /\ forall r, In r l -> b <= fst r /\ fst r < snd r.
Proof.
  revert a b. induction l as [|[c d] l IH]; intros a b H; inversion H; subst; (split; [lia|]).
  - intros r [].
  - intros r [<-|I]; cbn.
    + match goal with Q : sorted ((c, d) :: l) |- _ => apply IH in Q end. lia.
    + match goal with Q : sorted ((c, d) :: l) |- _ => apply IH in Q as [X Y] end. apply Y in I. lia.
Qed.

Lemma sorted_intro a b l : a < b -> sorted l -> (forall r, In r l -> b <= fst r) -> sorted ((a, b) :: l).
Proof.
  intros A S F. destruct l as [|[c d] l]; constructor; auto. apply (F (c, d)). left. reflexivity.
Qed.

Lemma disjoint_iff r1 r2 : fst r1 < snd r1 -> fst r2 < snd r2 ->
  (disjoint r1 r2 <-> snd r1 <= fst r2 \/ snd r2 <= fst r1).
Proof.
  intros A B. unfold disjoint, covers. split.
  - intros D. destruct (Z_le_gt_dec (snd r1) (fst r2)); [auto|]. destruct (Z_le_gt_dec (snd r2) (fst r1)); [auto|].
    exfalso. apply (D (Z.max (fst r1) (fst r2))). lia.
  - intros D p. lia.
Qed.

Lemma has_start_false lo l : has_start lo l = false <-> forall r, In r l -> fst r <> lo.
Proof.
  unfold has_start. induction l as [|r l IH]; cbn; [split; [intros _ r []|reflexivity]|].
  rewrite Bool.orb_false_iff, Z.eqb_neq, IH. split.
  - intros [A B] x [<-|I]; auto.
  - intros H. split; [apply H; auto|intros x I; apply H; auto].
Qed.

Lemma last_such_spec f l : sorted l -> (forall x y, x <= y -> f y = true -> f x = true) ->
  match last_such f l with
  | Some r => In r l /\ f (fst r) = true /\ forall x, In x l -> f (fst x) = true -> fst x <= fst r
  | None => forall x, In x l -> f (fst x) = false
  end.
Proof.
  intros S M. induction l as [|r l IH]; cbn; [intros x []|].
  specialize (IH (sorted_tl _ _ S)). destruct r as [a b]. cbn. pose proof (sorted_hd _ _ _ S) as [A B].
  destruct (f a) eqn:F.
  - destruct (last_such f l) as [x|].
    + destruct IH as (I1 & I2 & I3). split; [right; exact I1|]. split; [exact I2|].
      intros y [<-|Y] FY; [|auto]. cbn. destruct (B _ I1). lia.
    + split; [left; reflexivity|]. split; [exact F|]. intros y [<-|Y] FY; [cbn; lia|]. rewrite (IH y Y) in FY. discriminate.
  - intros x [<-|X]; [exact F|]. destruct (f (fst x)) eqn:G; [|reflexivity]. destruct (B _ X).
    rewrite (M a (fst x)) in F; [discriminate|lia|exact G].
Qed.

Lemma in_ins lo hi l r : In r (ins lo hi l) <-> r = (lo, hi) \/ In r l.
Proof.
  induction l as [|[a b] l IH]; cbn [ins]; [cbn; intuition congruence|].
  destruct (lo <? a); cbn [In]; [intuition congruence|]. rewrite IH. intuition congruence.
Qed.

Lemma ins_length lo hi l : length (ins lo hi l) = S (length l).
Proof. induction l as [|[a b] l IH]; cbn; [reflexivity|]. destruct (lo <? a); cbn; congruence. Qed.

Lemma find_after_spec lo l : sorted l ->
  match first_after lo l with
  | Some r => In r l /\ lo < fst r /\ forall x, In x l -> lo < fst x -> fst r <= fst x
  | None => forall x, In x l -> fst x <= lo
  end.
Proof.
  unfold first_after. intros S. induction l as [|[a b] l IH]; cbn [find]; [intros x []|].
  pose proof (sorted_hd _ _ _ S) as [A B]. cbn [fst]. destruct (Z.ltb_spec lo a).
  - split; [left; reflexivity|]. split; [cbn; lia|]. intros x [<-|I] _; cbn; [lia|]. destruct (B _ I). lia.
  - specialize (IH (sorted_tl _ _ S)). destruct (find _ l) as [r|].
    + destruct IH as (I1 & I2 & I3). split; [right; exact I1|]. split; [exact I2|].
      intros x [<-|I] L; [cbn in L; lia|auto].
    + intros x [<-|I]; cbn; [lia|auto].
Qed.

Lemma first_after_ins lo hi l : first_after lo (ins lo hi l) = first_after lo l.
Proof.
  unfold first_after. induction l as [|[a b] l IH]; cbn [ins find fst].
  - rewrite Z.ltb_irrefl. reflexivity.
  - destruct (lo <? a) eqn:E; cbn [find fst].
    + rewrite Z.ltb_irrefl, E. reflexivity.
    + rewrite E. exact IH.
Qed.

Lemma last_before_ins lo hi l : sorted l -> last_such (fun a => a <? lo) (ins lo hi l) = last_such (fun a => a <? lo) l.
Proof.
  induction l as [|[a b] l IH]; cbn [ins last_such fst]; intros S.
  - rewrite Z.ltb_irrefl. reflexivity.
  - destruct (lo <? a) eqn:E; cbn [last_such fst].
    + rewrite Z.ltb_irrefl. apply Z.ltb_lt in E. destruct (Z.ltb_spec a lo); [lia|reflexivity].
    + destruct (a <? lo); [|reflexivity]. rewrite IH by (eapply sorted_tl; eauto). reflexivity.
Qed.

(** the neighbour check is the check against all regions *)
Lemma overlap_spec lo hi l : sorted l -> lo < hi -> has_start lo l = false ->
  (overlaps_neighbours lo hi (ins lo hi l) = false <-> forall r, In r l -> disjoint r (lo, hi)).
Proof.
  intros S L H. rewrite has_start_false in H.
  assert (OK : forall r, In r l -> fst r < snd r).
  { intros [a b] I. clear H. induction l as [|[c d] l IH]; [destruct I|].
    destruct I as [E|I]; [injection E as -> ->; apply sorted_hd in S; cbn; lia|apply IH; [eapply sorted_tl; eauto|exact I]]. }
  assert (DIS : forall x y, In x l -> In y l -> fst x < fst y -> snd x <= fst y).
  { clear H OK. intros x y. induction l as [|[c d] l IH]; [intros []|]. pose proof (sorted_hd _ _ _ S) as [A B].
    intros [<-|X] [<-|Y] LT; cbn in *; [lia|apply (B _ Y)| |].
    - destruct (B _ X). lia.
    - apply IH; auto. eapply sorted_tl; eauto. }
  transitivity ((forall x, In x l -> fst x < lo -> snd x <= lo) /\ (forall x, In x l -> lo < fst x -> hi <= fst x)).
  - unfold overlaps_neighbours. rewrite first_after_ins, last_before_ins, ins_length by exact S.
    destruct (length l) as [|len] eqn:LEN.
    + destruct l; [|discriminate]. cbn. split; [intros _; split; intros x []|reflexivity].
    + change (Datatypes.S (Datatypes.S len) =? 1)%nat with false. cbv iota.
      pose proof (last_such_spec (fun a => a <? lo) l S) as P. pose proof (find_after_spec lo l S) as N.
      assert (M : forall x y, x <= y -> (y <? lo) = true -> (x <? lo) = true).
      { intros x y XY. rewrite !Z.ltb_lt. lia. }
      specialize (P M). rewrite Bool.orb_false_iff.
      assert (EP : match last_such (fun a => a <? lo) l with Some (_, b) => lo <? b | None => false end = false
                   <-> forall x, In x l -> fst x < lo -> snd x <= lo).
      { destruct (last_such _ l) as [[a b]|].
        - cbn [fst] in P. destruct P as (P1 & P2 & P3). apply Z.ltb_lt in P2. rewrite Z.ltb_ge. split.
          + intros B x X XL. specialize (P3 x X). rewrite Z.ltb_lt in P3. specialize (P3 XL).
            destruct (Z.eq_dec (fst x) a) as [E|NE].
            * assert (x = (a, b)) as ->.
              { pose proof (OK _ X). destruct x as [x1 x2]. cbn in E. subst x1.
                destruct (Z.lt_trichotomy x2 b) as [Q|[Q|Q]]; [| subst; reflexivity|].
                - exfalso. clear - S X P1 Q. induction l as [|[c d] l IH]; [destruct X|]. pose proof (sorted_hd _ _ _ S) as [A B].
                  destruct X as [X|X], P1 as [P|P].
                  + injection X as -> ->. injection P as ->. lia.
                  + injection X as -> ->. destruct (B _ P). cbn in *. lia.
                  + injection P as -> ->. destruct (B _ X). cbn in *. lia.
                  + apply IH; auto. eapply sorted_tl; eauto.
                - exfalso. clear - S X P1 Q. induction l as [|[c d] l IH]; [destruct X|]. pose proof (sorted_hd _ _ _ S) as [A B].
                  destruct X as [X|X], P1 as [P|P].
                  + injection X as -> ->. injection P as ->. lia.
                  + injection X as -> ->. destruct (B _ P). cbn in *. lia.
                  + injection P as -> ->. destruct (B _ X). cbn in *. lia.
                  + apply IH; auto. eapply sorted_tl; eauto. }
              cbn. lia.
            * pose proof (DIS x (a, b) X P1 ltac:(cbn; lia)). cbn in *. lia.
          + intros Q. specialize (Q _ P1). cbn in Q. apply Q. lia.
        - split; [|reflexivity]. intros _ x X XL. specialize (P x X). rewrite Z.ltb_ge in P. lia. }
      assert (EN : match first_after lo l with Some (a, _) => a <? hi | None => false end = false
                   <-> forall x, In x l -> lo < fst x -> hi <= fst x).
      { destruct (first_after lo l) as [[a b]|].
        - destruct N as (N1 & N2 & N3). cbn [fst] in *. rewrite Z.ltb_ge. split.
          + intros B x X XL. specialize (N3 x X XL). lia.
          + intros Q. apply (Q _ N1). exact N2.
        - split; [|reflexivity]. intros _ x X XL. specialize (N x X). lia. }
      rewrite EP, EN. reflexivity.
  - split.
    + intros [A B] r I. pose proof (OK _ I). pose proof (H _ I). apply disjoint_iff; cbn [fst snd]; [lia|lia|].
      destruct (Z.lt_trichotomy (fst r) lo) as [Q|[Q|Q]]; [left; auto|congruence|right; auto].
    + intros D. split; intros x X XL; specialize (D x X); apply disjoint_iff in D; cbn [fst snd] in *; try lia;
        pose proof (OK _ X); lia.
Qed.

Lemma sorted_ins lo hi l : sorted l -> lo < hi -> (forall r, In r l -> fst r <> lo /\ disjoint r (lo, hi)) -> sorted (ins lo hi l).
Proof.
  intros S L D. induction l as [|[a b] l IH]; cbn [ins]; [constructor; exact L|].
  pose proof (sorted_hd _ _ _ S) as [A B].
  assert (X : forall r, In r ((a, b) :: l) -> fst r < snd r) by (intros r [<-|I]; [exact A|apply B; exact I]).
  destruct (Z.ltb_spec lo a).
  - apply sorted_intro; auto. intros r I. destruct (D r I) as [_ DJ]. apply disjoint_iff in DJ; cbn; auto.
    destruct DJ as [DJ|DJ]; [|exact DJ]. cbn in DJ. pose proof (X _ I). destruct I as [<-|I]; cbn in *; [lia|]. destruct (B _ I). lia.
  - apply sorted_intro; auto.
    + apply IH; [eapply sorted_tl; eauto|]. intros r I. apply D. right. exact I.
    + intros r I. apply in_ins in I as [->|I]; [|apply B; exact I]. cbn.
      destruct (D (a, b) (or_introl eq_refl)) as [N DJ]. apply disjoint_iff in DJ; cbn in *; lia.
Qed.

Lemma sorted_del lo l : sorted l -> sorted (del lo l).
Proof.
  intros S. induction l as [|[a b] l IH]; cbn [del filter]; [constructor|].
  pose proof (sorted_hd _ _ _ S) as [A B]. pose proof (IH (sorted_tl _ _ S)) as IH'.
  cbn [fst]. destruct (negb (a =? lo)); [|exact IH'].
  apply sorted_intro; auto. intros r I. apply filter_In in I as [I _]. apply B. exact I.
Qed.

Lemma rstep_ok l o l' (S : Z * Z -> Prop) : sorted l -> (forall r, In r l <-> S r) -> sane_op o -> rstep l o = Some l' ->
  sorted l' /\ forall r, In r l' <-> expect_step S o r.
Proof.
  intros SO EQ SA E. destruct o as [lo hi|lo|]; cbn in *.
  - unfold UpdateKnownRegion in E. destruct (has_start lo l) eqn:H; [discriminate|].
    pose proof (overlap_spec lo hi l SO SA H) as OV.
    destruct (overlaps_neighbours lo hi (ins lo hi l)); injection E as <-.
    + split; [exact SO|]. intros r. rewrite EQ. split; [auto|]. intros [R|[-> R]]; [exact R|].
      exfalso. assert (true = false); [apply OV|discriminate]. intros r I. apply R, EQ, I.
    + destruct OV as [OV _]. specialize (OV eq_refl). split.
      * apply sorted_ins; auto. intros r I. split; [|auto]. rewrite has_start_false in H. auto.
      * intros r. rewrite in_ins, EQ. split; intros [R|R]; auto.
        -- right. split; [exact R|]. intros r' R'. apply OV, EQ, R'.
        -- destruct R. auto.
  - unfold RemoveKnownRegion in E. destruct (has_start lo l); [|discriminate]. injection E as <-.
    split; [apply sorted_del, SO|]. intros r. unfold del. rewrite filter_In, EQ, Bool.negb_true_iff, Z.eqb_neq. reflexivity.
  - injection E as <-. split; [constructor|]. intros r. cbn. tauto.
Qed.

Lemma rrun_ok : forall os l l' S, sorted l -> (forall r, In r l <-> S r) -> Forall sane_op os -> rrun l os = Some l' ->
  sorted l' /\ forall r, In r l' <-> fold_left expect_step os S r.
Proof.
  induction os as [|o os IH]; intros l l' S SO EQ SA E; cbn in *; [injection E as <-; auto|].
  inversion SA; subst. destruct (rstep l o) as [l1|] eqn:E1; [|discriminate].
  destruct (rstep_ok _ _ _ _ SO EQ H1 E1) as [SO1 EQ1]. eapply IH; eauto.
Qed.

(** * Theorems *)

(** After any history that did not hit an assertion, exactly the expected regions are known and
    they are pairwise disjoint. *)
Theorem C36_known_regions : forall os l, Forall sane_op os -> rrun [] os = Some l ->
  (forall r, In r l <-> expected os r) /\
  (forall r1 r2, expected os r1 -> expected os r2 -> r1 = r2 \/ disjoint r1 r2).
Proof.
  intros os l SA E. destruct (rrun_ok os [] l (fun _ => False) so_nil ltac:(cbn; tauto) SA E) as [SO EQ].
  split; [exact EQ|]. intros r1 r2 R1 R2. apply EQ in R1, R2. clear EQ E SA.
  induction l as [|[a b] l IH]; [destruct R1|]. pose proof (sorted_hd _ _ _ SO) as [A B].
  destruct R1 as [<-|R1], R2 as [<-|R2]; [auto| | |apply IH; auto; eapply sorted_tl; eauto]; right.
  - destruct (B _ R2). apply disjoint_iff; cbn; auto.
  - destruct (B _ R1). apply disjoint_iff; cbn; auto.
Qed.

(** Looking up an address inside a known region returns that region. *)
Theorem C36_lookup_finds_the_region : forall os l r p, Forall sane_op os -> rrun [] os = Some l ->
  expected os r -> covers r p -> GetBoundsFromAddress l p = Some r.
Proof.
  intros os l r p SA E R C. destruct (rrun_ok os [] l (fun _ => False) so_nil ltac:(cbn; tauto) SA E) as [SO EQ].
  apply EQ in R. unfold GetBoundsFromAddress.
  assert (M : forall x y, x <= y -> (y <=? p) = true -> (x <=? p) = true) by (intros x y XY; rewrite !Z.leb_le; lia).
  pose proof (last_such_spec (fun a => a <=? p) l SO M) as P. unfold covers in C.
  destruct (last_such _ l) as [[a b]|].
  - destruct P as (P1 & P2 & P3). cbn [fst] in *. apply Z.leb_le in P2.
    specialize (P3 r R). rewrite Z.leb_le in P3. specialize (P3 ltac:(lia)).
    assert (r = (a, b)) as ->.
    { destruct (proj2 (C36_known_regions os l SA E) r (a, b)) as [D|D]; [apply EQ, R|apply EQ, P1|exact D|].
      exfalso. destruct r as [c d]. cbn in *.
      assert (a < b). { clear - SO P1. induction l as [|[x y] l IH]; [destruct P1|]. destruct P1 as [P|P].
        - injection P as -> ->. apply sorted_hd in SO. lia. - apply IH; auto. eapply sorted_tl; eauto. }
      apply disjoint_iff in D; cbn in *; lia. }
    cbn in C. destruct (Z.leb_spec a p), (Z.leb_spec p b); cbn; try reflexivity; lia.
  - specialize (P r R). rewrite Z.leb_gt in P. lia.
Qed.

(** A lookup that returns a region returns a known one that contains the address or ends there.
    MISSING from C36: "nothing if it is in none" fails for the address one past the end. *)
Theorem C36_lookup_result_partial : forall os l r p, Forall sane_op os -> rrun [] os = Some l ->
  GetBoundsFromAddress l p = Some r -> expected os r /\ (covers r p \/ p = snd r).
Proof.
  intros os l r p SA E G. destruct (rrun_ok os [] l (fun _ => False) so_nil ltac:(cbn; tauto) SA E) as [SO EQ].
  unfold GetBoundsFromAddress in G.
  assert (M : forall x y, x <= y -> (y <=? p) = true -> (x <=? p) = true) by (intros x y XY; rewrite !Z.leb_le; lia).
  pose proof (last_such_spec (fun a => a <=? p) l SO M) as P.
  destruct (last_such _ l) as [[a b]|]; [|discriminate]. destruct P as (P1 & _).
  destruct ((a <=? p) && (p <=? b))%bool eqn:B; [|discriminate]. injection G as <-.
  apply Bool.andb_true_iff in B as [B1 B2]. apply Z.leb_le in B1, B2.
  split; [apply EQ, P1|]. unfold covers. cbn. lia.
Qed.

(** The exact rule for the boundary: the address one past a region is reported as belonging to it
    unless another region starts there. *)
Theorem C36_address_after_the_end : forall os l r, Forall sane_op os -> rrun [] os = Some l ->
  expected os r -> (forall r', expected os r' -> ~ covers r' (snd r)) -> GetBoundsFromAddress l (snd r) = Some r.
Proof.
  intros os l r SA E R NO. destruct (rrun_ok os [] l (fun _ => False) so_nil ltac:(cbn; tauto) SA E) as [SO EQ].
  pose proof R as R0. apply EQ in R.
  assert (OK : forall x, In x l -> fst x < snd x).
  { clear - SO. intros x I. induction l as [|[c d] l IH]; [destruct I|]. destruct I as [<-|I]; [apply sorted_hd in SO; cbn; lia|].
    apply IH; auto. eapply sorted_tl; eauto. }
  pose proof (OK _ R) as L.
  unfold GetBoundsFromAddress. set (p := snd r) in *.
  assert (M : forall x y, x <= y -> (y <=? p) = true -> (x <=? p) = true) by (intros x y XY; rewrite !Z.leb_le; lia).
  pose proof (last_such_spec (fun a => a <=? p) l SO M) as P.
  destruct (last_such _ l) as [x|].
  - destruct P as (P1 & P2 & P3). apply Z.leb_le in P2.
    specialize (P3 r R). rewrite Z.leb_le in P3. specialize (P3 ltac:(lia)).
    pose proof (OK _ P1) as LX.
    assert (x = r) as ->.
    { destruct (proj2 (C36_known_regions os l SA E) x r) as [D|D]; [apply EQ, P1|exact R0|exact D|].
      exfalso. apply disjoint_iff in D; [|exact LX|exact L].
      destruct D as [D|D]; [lia|]. fold p in D.
      apply (NO x); [apply EQ, P1|]. unfold covers. lia. }
    destruct r as [a b]. cbn in *. subst p. destruct (Z.leb_spec a b); [|lia]. rewrite Z.leb_refl. reflexivity.
  - specialize (P r R). rewrite Z.leb_gt in P. lia.
Qed.

Theorem C36_nothing_if_in_none_refuted : exists os l p,
  Forall sane_op os /\ rrun [] os = Some l /\
  (forall r, expected os r -> ~ covers r p) /\ GetBoundsFromAddress l p <> None.
Proof.
  exists [RAdd 4096 8192], [(4096, 8192)], 8192. split; [repeat constructor|]. split; [reflexivity|]. split.
  - intros r R. apply (C36_known_regions [RAdd 4096 8192] [(4096, 8192)]) in R; [|repeat constructor|reflexivity].
    destruct R as [<-|[]]. unfold covers. cbn. lia.
  - discriminate.
Qed.

(** When the registration functions terminate the process: a second region with a known start
    address, and the removal of an unknown one. *)
Theorem C36_when_registration_terminates : forall os l o, Forall sane_op os -> rrun [] os = Some l ->
  (rstep l o = None <->
   match o with
   | RAdd lo _ => exists r, expected os r /\ fst r = lo
   | RRemove lo => ~ exists r, expected os r /\ fst r = lo
   | RClear => False
   end).
Proof.
  intros os l o SA E. pose proof (proj1 (C36_known_regions os l SA E)) as EQ.
  assert (HS : forall lo, has_start lo l = true <-> exists r, expected os r /\ fst r = lo).
  { intros lo. unfold has_start. rewrite existsb_exists. split; intros (r & A & B); exists r.
    - apply Z.eqb_eq in B. split; [apply EQ, A|exact B].
    - apply Z.eqb_eq in B. split; [apply EQ, A|exact B]. }
  destruct o as [lo hi|lo|]; cbn.
  - unfold UpdateKnownRegion. rewrite <- HS. destruct (has_start lo l); [tauto|].
    destruct (overlaps_neighbours _ _ _); split; discriminate.
  - unfold RemoveKnownRegion. rewrite <- HS. destruct (has_start lo l); split; intros X; try discriminate; [destruct X; reflexivity|reflexivity].
  - split; [discriminate|tauto].
Qed.

(** What a registration returns: true exactly if the region is known afterwards. *)
Theorem C36_registration_result : forall l lo hi b l', UpdateKnownRegion l lo hi = Some (b, l') ->
  (b = true <-> In (lo, hi) l').
Proof.
  intros l lo hi b l' E. unfold UpdateKnownRegion in E. destruct (has_start lo l) eqn:H; [discriminate|].
  assert (N : ~ In (lo, hi) l).
  { intros I. unfold has_start in H. assert (X : existsb (fun r => fst r =? lo) l = true).
    { apply existsb_exists. exists (lo, hi). split; [exact I|apply Z.eqb_refl]. }
    congruence. }
  destruct (overlaps_neighbours _ _ _); injection E as <- <-; split; try discriminate; try contradiction; [|reflexivity].
  intros _. clear. induction l as [|[a c] l IH]; cbn; [left; reflexivity|]. destruct (lo <? a); cbn; auto.
Qed.

Definition C36_ops : list rop :=
  [RAdd 4096 8192; RAdd 12288 16384; RAdd 8192 12288; RAdd 10000 20000; RRemove 4096; RAdd 100 4096].
Example C36_example : exists l, Forall sane_op C36_ops /\ rrun [] C36_ops = Some l /\
  l = [(100, 4096); (8192, 12288); (12288, 16384)] /\
  GetBoundsFromAddress l 12288 = Some (12288, 16384) /\ GetBoundsFromAddress l 5000 = None /\
  GetBoundsFromAddress l 8191 = None /\ GetBoundsFromAddress l 100 = Some (100, 4096).
Proof. eexists. split; [repeat constructor|]. split; [reflexivity|]. repeat split. Qed.

Print Assumptions C36_known_regions.
Print Assumptions C36_lookup_finds_the_region.
Print Assumptions C36_lookup_result_partial.
Print Assumptions C36_address_after_the_end.
Print Assumptions C36_nothing_if_in_none_refuted.
Print Assumptions C36_when_registration_terminates.
Print Assumptions C36_registration_result.
