From Coq Require Import List Arith Bool Lia.
From Verif Require Import DxModel DxSpec.
Import ListNotations.

Lemma run_reach : forall ls s o s' o', reach s -> run s o ls = Some (s', o') -> reach s'.
Proof.
  induction ls as [|l r IH]; intros s o s' o' R H; cbn in H.
  - injection H; intros; subst; exact R.
  - destruct (step s l) as [[s1 o1]|] eqn:E; [|discriminate]. eapply IH; [eapply r_step; eauto|exact H].
Qed.

Lemma mem_in i l : mem i l = true <-> In i l.
Proof.
  unfold mem. rewrite existsb_exists. split.
  - intros (x & I & E). apply Nat.eqb_eq in E. now subst.
  - intros I. exists i. split; [exact I|apply Nat.eqb_refl].
Qed.
Lemma same_spec a b : same a b = true <-> same_instances a b.
Proof.
  unfold same, subset, same_instances. rewrite andb_true_iff, !forallb_forall. split.
  - intros [A B] i. split; intros I; apply mem_in; auto.
  - intros H. split; intros i I; apply mem_in; apply H; exact I.
Qed.

Record inv (s : st) : Prop := {
  i_active : match task s with
             | FNone | FErr => search s = false /\ hs s = None /\ cb s = false /\ stops s = 0 /\ reports s = []
             | FNew | FIn | FWait =>
                 search s = true /\ stops s = 0
             | FEnd => stops s <= 1 /\ (stops s = 1 -> search s = false)
             end;
  i_rep : search s = true -> hs s = hd_error (reports s) /\ prev s = hd [] (reports s);
  i_cb : cb s = true -> reports s <> [];
  i_wk : match task s with
         | FIn => wk s = true \/ woken s = true
         | FWait => (wk s = true \/ woken s = true) /\ (hs s <> None -> woken s = true \/ cb s = true)
         | FNew => woken s = true
         | _ => True end;
  i_clo : task s <> FNone -> closure s = true;
  i_first : forall r l, reports s = r ++ [l] -> l <> []
}.

Lemma inv_init : inv init.
Proof. constructor; cbn; auto; try discriminate; try tauto. intros [|? []]; discriminate. Qed.

Lemma step_inv s l s' o : inv s -> step s l = Some (s', o) -> inv s'.
Proof.
  intros IV H. destruct IV as [A R B W C F]. destruct l; cbn in H.
  - destruct (mem i (offered s)); [discriminate|]. injection H as <- <-. constructor; assumption.
  - destruct (mem i (offered s)); [|discriminate]. injection H as <- <-. constructor; assumption.
  - destruct (task s) eqn:T; try discriminate. injection H as <- <-. unfold call.
    destruct (spec_ok && start_ok); [destruct (offered s) as [|x r] eqn:O|];
      constructor; cbn; auto; try discriminate; try tauto.
    all: intros [|? [|? ?]] q E; cbn in E; try discriminate; injection E; intros; subst; discriminate.
  - destruct (search s) eqn:S; [|discriminate]. destruct (cb s) eqn:CB; [discriminate|].
    destruct (same (prev s) (offered s)) eqn:SM; [discriminate|]. injection H as <- <-.
    destruct (R eq_refl) as [R1 R2].
    constructor; cbn; rewrite ?S; auto; try discriminate.
    + destruct (task s); auto; destruct A; discriminate.
    + destruct (task s); auto. split; [tauto|auto].
    + intros [|z r] q E; cbn in E; injection E; intros E1 E2; subst.
      * rewrite E1 in R2. cbn in R2. rewrite R2 in SM. intros E0; rewrite E0 in SM. discriminate.
      * eapply F; exact E1.
  - destruct (cb s) eqn:CB; [|discriminate]. injection H as <- <-. specialize (B eq_refl).
    constructor; cbn; auto; try discriminate.
    + destruct (task s) eqn:T; try tauto.
    + destruct (task s); auto.
      * rewrite W. reflexivity.
      * destruct W as [-> | ->]; rewrite ?orb_true_r; auto.
      * destruct W as [[-> | ->] W2]; rewrite ?orb_true_r; auto.
  - destruct (task s) eqn:T; try discriminate; injection H as <- <-.
    + constructor; cbn; auto; try (intros; apply C; congruence). split; [lia|]. intros; tauto.
    + constructor; cbn; auto. intros _; apply C; congruence.
    + constructor; cbn; auto. intros _; apply C; congruence.
  - destruct (task s) eqn:T; try discriminate.
    destruct (hs s) as [q|] eqn:Q.
    + destruct (cb s) eqn:CB; [discriminate|]. injection H as <- <-.
      constructor; cbn; rewrite ?CB; auto; try discriminate; try (intros; apply C; congruence).
      destruct A as [_ A]. rewrite A. split; auto.
    + injection H as <- <-. constructor; cbn; rewrite ?Q; auto; try (intros; apply C; congruence).
  - destruct (task s) eqn:T; try discriminate.
    + injection H as <- <-. constructor; cbn; auto; try (intros; apply C; congruence). split; [lia|tauto].
    + injection H as <- <-. constructor; cbn; auto; try (intros; apply C; congruence). split; [lia|]. intros E; lia.
    + destruct (cb s) eqn:CB; [discriminate|]. injection H as <- <-.
      constructor; cbn; rewrite ?CB; auto; try discriminate; try (intros; apply C; congruence).
      destruct A as [_ A]. rewrite A. split; auto.
Qed.

Lemma reach_inv s : reach s -> inv s.
Proof. induction 1; [apply inv_init|eapply step_inv; eauto]. Qed.
