(** C119: proofs. *)
From Coq Require Import List Bool Arith Lia.
From Verif Require Import GuardModel GuardSpec.
Import ListNotations.

Lemma outstanding_app : forall t a b, outstanding t (a ++ b) = outstanding t a + outstanding t b.
Proof. intros t a b. induction a as [|g r IH]; cbn; [reflexivity|]. rewrite IH. lia. Qed.

Lemma outstanding_set : forall t l i g, i < length l -> outstanding t (set i g l) + hit t (nth i l None) = outstanding t l + hit t g.
Proof.
  intros t l. induction l as [|x r IH]; intros i g H; [cbn in H; lia|]. destruct i as [|i]; cbn in *; [lia|].
  specialize (IH i g ltac:(lia)). lia.
Qed.

Lemma set_out : forall l i g, length l <= i -> set i g l = l.
Proof. induction l as [|x r IH]; intros i g H; [destruct i; reflexivity|]. destruct i; cbn in *; [lia|]. f_equal. apply IH. lia. Qed.

Lemma set_length : forall l i g, length (set i g l) = length l.
Proof. induction l as [|x r IH]; intros [|i] g; cbn; auto. Qed.

Lemma nth_set_same : forall l i g, i < length l -> nth i (set i g l) None = g.
Proof. induction l as [|x r IH]; intros [|i] g H; cbn in *; try lia; auto. apply IH. lia. Qed.

Lemma nth_set_other : forall l i j g, i <> j -> nth j (set i g l) None = nth j l None.
Proof. induction l as [|x r IH]; intros [|i] [|j] g H; cbn; auto; congruence. Qed.

Lemma hit_out : forall t l i, outstanding t l = 0 -> hit t (nth i l None) = 0.
Proof. intros t l. induction l as [|x r IH]; intros [|i] H; cbn in *; auto; try lia. apply IH. lia. Qed.

Lemma hit_self : forall t, hit t (Some t) = 1.
Proof. intros. cbn. now rewrite Nat.eqb_refl. Qed.

Record inv (s : st) : Prop := {
  i_out : out s = Running \/ out s = Terminated;
  i_cnt : forall t, cnt s t = outstanding t (guards s);
  i_chk : forall t, checked s t = true -> cnt s t = 0;
  i_gone : forall t, gone s t = true -> checked s t = true }.

Lemma inv_init : inv init.
Proof. split; cbn; auto. Qed.

(** What releasing the guard [i] does. *)
Lemma deallocate_spec : forall s i, inv s ->
  inv (deallocate s i) /\ guards (deallocate s i) = set i None (guards s) /\
  out (deallocate s i) = out s /\
  forall t, cnt (deallocate s i) t = cnt s t - hit t (guard s i).
Proof.
  intros s i [I1 I2 I3 I4]. unfold deallocate. destruct (guard s i) as [u|] eqn:G.
  - assert (i < length (guards s)) as L by (destruct (Nat.lt_ge_cases i (length (guards s))); auto; unfold guard in G; rewrite nth_overflow in G by assumption; discriminate).
    assert (cnt s u <> 0) as N.
    { rewrite I2. intros F. pose proof (hit_out u (guards s) i F) as H. unfold guard in G. rewrite G, hit_self in H. discriminate. }
    assert (gone s u = false) as A by (destruct (gone s u) eqn:E; auto; elim N; auto).
    unfold tracker_deallocate. rewrite A. destruct (cnt s u) as [|n] eqn:C; [congruence|].
    assert (forall t, upd (cnt s) u n t = cnt s t - hit t (Some u)) as CC.
    { intros t. unfold upd. cbn. destruct (Nat.eqb_spec u t) as [->|]; [rewrite C|]; lia. }
    cbn. split; [|repeat split; auto]. split; cbn; auto.
    + intros t. rewrite CC, I2. pose proof (outstanding_set t (guards s) i None L) as H. unfold guard in G. rewrite G in H. cbn [hit] in *. lia.
    + intros t Ht. rewrite CC, (I3 t Ht). reflexivity.
  - split; [split; auto|]. repeat split; auto.
    + destruct (Nat.lt_ge_cases i (length (guards s))) as [L|L]; [|now rewrite set_out].
      clear - G L. unfold guard in G. revert i G L. induction (guards s) as [|x r IH]; intros [|i] G L; cbn in *; try lia; [now subst|]. f_equal. apply IH; [auto|lia].
    + intros t. cbn. lia.
Qed.

Lemma step_inv : forall s l, inv s -> (forall t, l = LAllocate t -> checked s t = false) -> inv (step s l).
Proof.
  intros s l I0 P. pose proof I0 as [I1 I2 I3 I4]. unfold step. destruct (out s) eqn:O; auto. destruct l.
  - destruct (gone s t) eqn:E; auto. specialize (P t eq_refl). split; cbn; auto; intros u; unfold upd; destruct (Nat.eqb_spec t u) as [->|N]; rewrite ?outstanding_app; cbn; rewrite ?Nat.eqb_refl; try congruence; auto.
    + rewrite I2. lia.
    + destruct (Nat.eqb_spec t u); [congruence|]. rewrite I2. lia.
  - split; cbn; auto. intros t. rewrite outstanding_app. cbn. rewrite I2. unfold guard.
    destruct (Nat.lt_ge_cases j (length (guards s))) as [L|L].
    + pose proof (outstanding_set t (guards s) j None L). cbn in *. lia.
    + rewrite set_out by assumption. rewrite nth_overflow by assumption. cbn. lia.
  - destruct (Nat.ltb_spec i (length (guards s))) as [Li|]; auto. destruct (Nat.eqb_spec i j) as [|N]; auto.
    destruct (deallocate_spec s i I0) as (J & G & Oo & C). pose proof J as [J1 J2 J3 J4]. cbv zeta.
    split; cbn; auto. intros t. rewrite J2. unfold guard.
    assert (i < length (guards (deallocate s i))) as L1 by (rewrite G, set_length; exact Li).
    pose proof (outstanding_set t (guards (deallocate s i)) i (nth j (guards (deallocate s i)) None) L1) as H1.
    assert (nth i (guards (deallocate s i)) None = None) as Z by (rewrite G; now apply nth_set_same).
    rewrite Z in H1. cbn [hit] in H1.
    destruct (Nat.lt_ge_cases j (length (guards s))) as [L|L].
    + assert (j < length (set i (nth j (guards (deallocate s i)) None) (guards (deallocate s i)))) as L2 by (rewrite set_length, G, set_length; exact L).
      pose proof (outstanding_set t _ j None L2) as H2. rewrite nth_set_other in H2 by assumption. cbn [hit] in H2. lia.
    + rewrite (set_out _ j) by (rewrite set_length, G, set_length; exact L).
      rewrite (nth_overflow (guards (deallocate s i)) None (n := j)) in * by (rewrite G, set_length; exact L). cbn [hit] in H1. lia.
  - now apply deallocate_spec.
  - destruct (checked s t) eqn:E; auto. destruct (cnt s t) eqn:C; split; cbn; auto;
      intros u; unfold upd; destruct (Nat.eqb_spec t u) as [->|]; auto.
  - destruct (checked s t) eqn:E; auto. split; cbn; auto. intros u. unfold upd. destruct (Nat.eqb_spec t u) as [->|]; auto.
Qed.

Lemma run_snoc : forall s ls l, run s (ls ++ [l]) = step (run s ls) l.
Proof. intros. unfold run. now rewrite fold_left_app. Qed.

Lemma deallocate_checked : forall s i, checked (deallocate s i) = checked s.
Proof.
  intros. unfold deallocate. destruct (guard s i); auto. unfold tracker_deallocate. destruct (gone s n); auto. destruct (cnt s n); auto.
Qed.

Lemma step_checked : forall s l t, checked (step s l) t = true -> checked s t = true \/ l = LCheck t.
Proof.
  intros s l t. unfold step. destruct (out s); auto. destruct l; auto.
  - destruct (gone s t0); auto.
  - destruct (Nat.ltb i (length (guards s))); auto. destruct (Nat.eqb i j); auto. cbn. rewrite deallocate_checked. auto.
  - rewrite deallocate_checked. auto.
  - destruct (checked s t0) eqn:E; auto. destruct (cnt s t0); cbn; auto. unfold upd. destruct (Nat.eqb_spec t0 t) as [->|]; auto.
  - destruct (checked s t0); auto.
Qed.

Lemma run_checked : forall ls t, checked (run init ls) t = true -> In (LCheck t) ls.
Proof.
  induction ls as [|l ls IH] using rev_ind; intros t H; [discriminate|]. rewrite run_snoc in H. apply in_or_app.
  apply step_checked in H as [H| ->]; [left; auto|right; now left].
Qed.

Lemma run_inv : forall ls, polite ls -> inv (run init ls).
Proof.
  induction ls as [|l ls IH] using rev_ind; intros P; [apply inv_init|]. rewrite run_snoc. apply step_inv.
  - apply IH. intros p t q ->. apply (P p t (q ++ [l])). now rewrite <- app_assoc.
  - intros t ->. destruct (checked (run init ls) t) eqn:E; auto. apply run_checked in E. now elim (P ls t []).
Qed.
