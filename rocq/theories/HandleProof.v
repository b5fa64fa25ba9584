(** C119: proofs for the objects of the user. *)
From Coq Require Import List Bool Arith Lia.
From Verif Require Import GuardModel GuardSpec GuardProof HandleModel HandleSpec.
Import ListNotations.

Lemma map_hset : forall (f : handle -> option nat) l i h, map f (hset i h l) = set i (f h) (map f l).
Proof. intros f. induction l as [|x r IH]; intros [|i] h; cbn; auto. now rewrite IH. Qed.

Lemma hset_out : forall l i h, length l <= i -> hset i h l = l.
Proof. induction l as [|x r IH]; intros [|i] h H; cbn in *; auto; [lia|]. f_equal. apply IH. lia. Qed.

Lemma hset_length : forall l i h, length (hset i h l) = length l.
Proof. induction l as [|x r IH]; intros [|i] h; cbn; auto. Qed.

Lemma nth_hset_same : forall l i h, i < length l -> nth i (hset i h l) empty = h.
Proof. induction l as [|x r IH]; intros [|i] h H; cbn in *; try lia; auto. apply IH. lia. Qed.

Lemma nth_hset_other : forall l i j h, i <> j -> nth j (hset i h l) empty = nth j l empty.
Proof. induction l as [|x r IH]; intros [|i] [|j] h H; cbn; auto; congruence. Qed.

Lemma hset_twice : forall l i a b, hset i a (hset i b l) = hset i a l.
Proof. induction l as [|x r IH]; intros [|i] a b; cbn; auto. now rewrite IH. Qed.

Lemma In_hset : forall l i h x, In x (hset i h l) -> x = h \/ In x l.
Proof. induction l as [|y r IH]; intros [|i] h x H; cbn in *; auto; destruct H as [H|H]; auto. apply IH in H as [H|H]; auto. Qed.

Lemma held_grd : forall s i, grd (held s i) = nth i (map grd (hs s)) None.
Proof. intros. unfold held. change None with (grd empty). now rewrite map_nth. Qed.

Lemma held_In : forall s i, held s i = empty \/ In (held s i) (hs s).
Proof.
  intros s i. destruct (Nat.lt_ge_cases i (length (hs s))) as [L|L]; [right; now apply nth_In|left; now apply nth_overflow].
Qed.

Record hinv (s : hst) : Prop := {
  h_out : hout s = Running \/ hout s = Terminated;
  h_cnt : forall t, hcnt s t = outstanding t (map grd (hs s));
  h_own : forall h t, In h (hs s) -> slot h = Some t -> grd h = Some t;
  h_chk : forall t, hchecked s t = true -> hcnt s t = 0;
  h_gone : forall t, hgone s t = true -> hchecked s t = true }.

Lemma hinv_init : hinv hinit.
Proof. split; cbn; auto; try discriminate. tauto. Qed.

Lemma held_own : forall s i t, hinv s -> slot (held s i) = Some t -> grd (held s i) = Some t.
Proof.
  intros s i t I0 H. destruct (held_In s i) as [E|E]; [rewrite E in H; discriminate|]. exact (h_own s I0 _ t E H).
Qed.

Lemma held_counted : forall s i t, hinv s -> grd (held s i) = Some t -> hcnt s t <> 0 /\ hgone s t = false /\ i < length (hs s).
Proof.
  intros s i t [I1 I2 I3 I4 I5] H.
  assert (hcnt s t <> 0) as N.
  { rewrite I2. intros F. pose proof (hit_out t _ i F) as G. rewrite <- held_grd, H, hit_self in G. discriminate. }
  split; [exact N|]. split.
  - destruct (hgone s t) eqn:E; auto. elim N. auto.
  - destruct (Nat.lt_ge_cases i (length (hs s))) as [L|L]; auto. unfold held in H. rewrite nth_overflow in H by assumption. discriminate.
Qed.

Lemma hstep_inv : forall s l, hinv s -> (forall t, l = HAlloc t -> hchecked s t = false) ->
  (forall i, l = HGuard i -> slot (held s i) = None) -> hinv (hstep s l).
Proof.
  intros s l I0 P Q. pose proof I0 as [I1 I2 I3 I4 I5]. unfold hstep. destruct (hout s) eqn:O; auto. destruct l.
  - destruct (hgone s t) eqn:E; auto. specialize (P t eq_refl). split; cbn; auto.
    + intros u. rewrite map_app, outstanding_app. cbn. unfold upd. destruct (Nat.eqb_spec t u) as [->|N]; rewrite I2; lia.
    + intros h u H. apply in_app_or in H as [H|[<-|[]]]; eauto.
    + intros u H. unfold upd. destruct (Nat.eqb_spec t u) as [->|N]; auto. congruence.
  - split; cbn; auto.
    + intros t. rewrite map_app, outstanding_app, map_hset. cbn. rewrite held_grd, I2.
      destruct (Nat.lt_ge_cases j (length (map grd (hs s)))) as [L|L].
      * pose proof (outstanding_set t _ j None L). cbn in *. lia.
      * rewrite set_out by assumption. rewrite nth_overflow by assumption. cbn. lia.
    + intros h t H. apply in_app_or in H as [H|[<-|[]]].
      * apply In_hset in H as [->|H]; [discriminate|eauto].
      * intros; now apply held_own.
  - destruct (Nat.ltb_spec i (length (hs s))) as [Li|]; auto. destruct (Nat.ltb_spec j (length (hs s))) as [Lj|]; auto. cbn.
    split; cbn; auto.
    + intros t. rewrite !map_hset, I2, !held_grd. rewrite <- (map_length grd) in Li, Lj.
      set (g := map grd (hs s)) in *.
      pose proof (outstanding_set t g i (nth j g None) Li) as H1.
      assert (j < length (set i (nth j g None) g)) as L2 by now rewrite set_length.
      pose proof (outstanding_set t _ j (nth i g None) L2) as H2.
      destruct (Nat.eq_dec i j) as [->|N].
      * rewrite nth_set_same in H2 by assumption. lia.
      * rewrite nth_set_other in H2 by assumption. lia.
    + intros h t H. apply In_hset in H as [->|H]; [intros; now apply held_own|]. apply In_hset in H as [->|H]; eauto. intros; now apply held_own.
  - destruct (slot (held s i)) as [t|] eqn:S0; auto. pose proof (held_own s i t I0 S0) as G. destruct (held_counted s i t I0 G) as (_ & A & L). rewrite A.
    split; cbn; auto.
    + intros u. rewrite map_hset, I2. cbn. rewrite <- (map_length grd) in L. pose proof (outstanding_set u _ i (grd (held s i)) L) as H. rewrite <- held_grd in H. lia.
    + intros h u H. apply In_hset in H as [->|H]; [discriminate|eauto].
  - specialize (Q i eq_refl). destruct (grd (held s i)) as [t|] eqn:G; auto. destruct (held_counted s i t I0 G) as (N & A & L). rewrite A.
    destruct (hcnt s t) as [|n] eqn:C; [congruence|]. rewrite Q.
    assert (forall u, upd (hcnt s) t n u = hcnt s u - hit u (Some t)) as CC.
    { intros u. unfold upd. cbn. destruct (Nat.eqb_spec t u) as [->|]; [rewrite C|]; lia. }
    split; cbn; auto.
    + intros u. rewrite CC, map_hset, I2. cbn [grd]. rewrite <- (map_length grd) in L. pose proof (outstanding_set u _ i None L) as H. rewrite <- held_grd, G in H. cbn [hit] in *. lia.
    + intros h u H. apply In_hset in H as [->|H]; [discriminate|eauto].
    + intros u H. rewrite CC, (I4 u H). reflexivity.
  - destruct (hchecked s t) eqn:E; auto. destruct (hcnt s t) eqn:C; split; cbn; auto;
      intros u; unfold upd; destruct (Nat.eqb_spec t u) as [->|]; auto.
  - destruct (hchecked s t) eqn:E; auto. split; cbn; auto. intros u. unfold upd. destruct (Nat.eqb_spec t u) as [->|]; auto.
Qed.

Lemma hrun_app : forall s a b, hrun s (a ++ b) = hrun (hrun s a) b.
Proof. intros. unfold hrun. apply fold_left_app. Qed.

Lemma hstep_checked : forall s l t, hchecked (hstep s l) t = true -> hchecked s t = true \/ l = HCheck t.
Proof.
  intros s l t. unfold hstep. destruct (hout s); auto. destruct l; auto.
  - destruct (hgone s t0); auto.
  - destruct (_ && _); auto.
  - destruct (slot (held s i)); auto. destruct (hgone s n); auto.
  - destruct (grd (held s i)); auto. destruct (hgone s n); auto. destruct (hcnt s n); auto.
  - destruct (hchecked s t0) eqn:E; auto. destruct (hcnt s t0); cbn; auto. unfold upd. destruct (Nat.eqb_spec t0 t) as [->|]; auto.
  - destruct (hchecked s t0); auto.
Qed.

Lemma hrun_checked : forall ls t, hchecked (hrun hinit ls) t = true -> In (HCheck t) ls.
Proof.
  induction ls as [|l ls IH] using rev_ind; intros t H; [discriminate|]. rewrite hrun_app in H. apply in_or_app.
  apply hstep_checked in H as [H| ->]; [left; auto|right; now left].
Qed.

Lemma hpolite_prefix : forall a b, hpolite (a ++ b) -> hpolite a.
Proof. intros a b P p t q ->. apply (P p t (q ++ b)). now rewrite <- app_assoc. Qed.

Lemma hrun_inv : forall ls, hpolite ls -> slot_first ls -> hinv (hrun hinit ls).
Proof.
  induction ls as [|l ls IH] using rev_ind; intros P Q; [apply hinv_init|]. rewrite hrun_app. apply hstep_inv.
  - apply IH; [now apply hpolite_prefix in P|]. intros p i q ->. apply (Q p i (q ++ [l])). now rewrite <- app_assoc.
  - intros t ->. destruct (hchecked (hrun hinit ls) t) eqn:E; auto. apply hrun_checked in E. now elim (P ls t []).
  - intros i ->. now apply (Q ls i []).
Qed.

Lemma slot_eq : forall s i t, hout s = Running -> slot (held s i) = Some t -> hgone s t = false ->
  hstep s (HSlot i) = hput s i (mkH None (grd (held s i))).
Proof. intros s i t O S0 A. unfold hstep. now rewrite O, S0, A. Qed.

Lemma guard_eq : forall s i t n, hout s = Running -> grd (held s i) = Some t -> hgone s t = false -> hcnt s t = S n ->
  hstep s (HGuard i) = hput (mkHS (upd (hcnt s) t n) (hchecked s) (hgone s) (hs s) Running) i (mkH (slot (held s i)) None).
Proof. intros s i t n O S0 A C. unfold hstep. now rewrite O, S0, A, C. Qed.

Lemma held_hput : forall s i h, i < length (hs s) -> held (hput s i h) i = h.
Proof. intros. unfold held, hput. cbn. now apply nth_hset_same. Qed.

(** Without others in between, the destructor does what reset does. *)
Lemma destroy_reset : forall s i, hinv s -> hrun s (destroy i) = hrun s (reset i).
Proof.
  intros s i I0. cbn. pose proof I0 as [I1 _ _ _ _]. destruct I1 as [O|O]; [|unfold hstep; rewrite !O; reflexivity].
  destruct (slot (held s i)) as [t|] eqn:S0.
  - pose proof (held_own s i t I0 S0) as G. destruct (held_counted s i t I0 G) as (N & A & L).
    destruct (hcnt s t) as [|n] eqn:C; [congruence|].
    rewrite (guard_eq s i t n), (slot_eq s i t) by assumption.
    rewrite (slot_eq _ i t); cbn [hout hgone hput]; auto; [|rewrite held_hput by assumption; exact S0].
    rewrite (guard_eq _ i t n); cbn [hout hgone hput hcnt]; auto; [|rewrite held_hput by assumption; exact G].
    rewrite !held_hput by assumption. unfold hput. cbn. rewrite !hset_twice. reflexivity.
  - assert (hstep s (HSlot i) = s) as ->.
    { unfold hstep. rewrite O, S0. reflexivity. }
    assert (hinv (hstep s (HGuard i))) as J by (apply hstep_inv; [auto|discriminate|]; intros k E; inversion E; now subst).
    assert (slot (held (hstep s (HGuard i)) i) = None) as Z.
    { unfold hstep. rewrite O. destruct (grd (held s i)) as [t|] eqn:G; auto. destruct (held_counted s i t I0 G) as (N & A & L). rewrite A.
      destruct (hcnt s t) as [|n] eqn:C; [congruence|]. unfold held, hput. cbn. rewrite nth_hset_same by assumption. exact S0. }
    unfold hstep at 1. rewrite Z. destruct (hout (hstep s (HGuard i))); reflexivity.
Qed.

Lemma reset_inv : forall s i, hinv s -> hinv (hrun s (reset i)).
Proof.
  intros s i I0. cbn. assert (hinv (hstep s (HSlot i))) as J by (apply hstep_inv; [auto|discriminate|discriminate]).
  destruct (h_out s I0) as [O|O].
  - apply hstep_inv; [exact J|discriminate|]. intros k E. inversion E. subst k. unfold hstep. rewrite O. destruct (slot (held s i)) as [t|] eqn:S0; auto.
    pose proof (held_own s i t I0 S0) as G. destruct (held_counted s i t I0 G) as (N & A & L). rewrite A. unfold held, hput. cbn. now rewrite nth_hset_same.
  - unfold hstep. rewrite O, O. exact I0.
Qed.

Lemma history_snoc : forall os o, history (os ++ [o]) = history os ++ steps o.
Proof. intros. unfold history. rewrite flat_map_app. cbn. now rewrite app_nil_r. Qed.

(** After whole operations every object has its slot and guard together. *)
Record whole (s : hst) : Prop := { w_inv : hinv s; w_both : forall h, In h (hs s) -> grd h = slot h }.

Lemma held_both : forall s i, whole s -> grd (held s i) = slot (held s i).
Proof. intros s i [_ W]. destruct (held_In s i) as [->|E]; [reflexivity|]. auto. Qed.

Lemma reset_hs : forall s i, hinv s -> hout s = Running -> grd (held s i) = slot (held s i) ->
  hs (hrun s (reset i)) = hset i empty (hs s).
Proof.
  intros s i I0 O B. cbn. destruct (slot (held s i)) as [t|] eqn:S0.
  - destruct (held_counted s i t I0 B) as (N & A & L). destruct (hcnt s t) as [|n] eqn:C; [congruence|].
    rewrite (slot_eq s i t) by assumption.
    rewrite (guard_eq _ i t n); cbn [hout hgone hput hcnt]; auto; [|rewrite held_hput by assumption; exact B].
    rewrite !held_hput by assumption. unfold hput. cbn. rewrite !hset_twice. reflexivity.
  - unfold hstep. rewrite O, S0, O, B. clear - S0 B. unfold held in *. revert i S0 B. induction (hs s) as [|x r IH]; intros [|i] S0 B; cbn in *; auto.
    + destruct x as [a b]. cbn in *. subst. reflexivity.
    + now rewrite <- IH.
Qed.

Lemma whole_run : forall os, hpolite (history os) -> whole (hrun hinit (history os)).
Proof.
  induction os as [|o os IH] using rev_ind; intros P; [split; [apply hinv_init|cbn; tauto]|].
  rewrite history_snoc in *. pose proof (IH (hpolite_prefix _ _ P)) as W. pose proof W as [I0 B]. rewrite hrun_app.
  assert (forall i, whole (hrun (hrun hinit (history os)) (reset i))) as R.
  { intros i. split; [now apply reset_inv|]. destruct (h_out _ I0) as [O|O].
    - rewrite reset_hs; auto; [|now apply held_both]. intros h H. apply In_hset in H as [->|H]; auto.
    - cbn. unfold hstep. rewrite O, O. exact B. }
  destruct o; cbn [steps].
  - assert (hchecked (hrun hinit (history os)) t = false) as E.
    { destruct (hchecked (hrun hinit (history os)) t) eqn:E; auto. apply hrun_checked in E. now elim (P (history os) t []). }
    split; [apply hstep_inv; [auto| |discriminate]; intros u F; inversion F; now subst|].
    cbn. unfold hstep. destruct (hout _); auto. destruct (hgone _ t); auto. cbn. intros h H. apply in_app_or in H as [H|[<-|[]]]; auto.
  - split; [apply hstep_inv; [auto|discriminate|discriminate]|]. cbn. unfold hstep. destruct (hout _); auto. cbn.
    intros h H. apply in_app_or in H as [H|[<-|[]]]; [apply In_hset in H as [->|H]; auto|now apply held_both].
  - split; [apply hstep_inv; [auto|discriminate|discriminate]|]. cbn. unfold hstep. destruct (hout _); auto. destruct (_ && _); auto. cbn.
    intros h H. apply In_hset in H as [->|H]; [now apply held_both|]. apply In_hset in H as [->|H]; [now apply held_both|]. auto.
  - apply R.
  - rewrite destroy_reset by assumption. apply R.
  - set (s := hrun hinit (history os)) in *. cbn. split.
    + apply hstep_inv; [apply hstep_inv; [auto|discriminate|discriminate]|discriminate|discriminate].
    + assert (forall s l, (exists t, l = HCheck t \/ l = HGone t) -> hs (hstep s l) = hs s) as K.
      { clear. intros s l [t [->| ->]]; unfold hstep; destruct (hout s); auto; destruct (hchecked s t); auto. destruct (hcnt s t); auto. }
      rewrite !K by eauto. exact B.
Qed.
