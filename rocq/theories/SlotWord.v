(** Arithmetic of slot words. *)
From Verif Require Import SlotModel.
Local Open Scope N_scope.

Ltac Zify.zify_post_hook ::= Z.div_mod_to_equations.

Definition word (t r : N) : N := t * two32 + r.

Lemma mk_status_word t r : t < two32 -> r < two32 -> mk_status t r = word t r.
Proof.
  unfold mk_status, set_rc, set_ts, word, two32, two64; intros Ht Hr.
  rewrite (N.mod_small (t * 4294967296)) by lia.
  rewrite N.div_mul by lia. reflexivity.
Qed.

Lemma ts_word t r : r < two32 -> ts_of (word t r) = t.
Proof. unfold ts_of, word, two32; intros; rewrite N.div_add_l by lia; rewrite N.div_small by lia; lia. Qed.

Lemma rc_word t r : r < two32 -> rc_of (word t r) = r.
Proof. unfold rc_of, word, two32; intros; rewrite N.add_comm, N.mod_add by lia; apply N.mod_small; lia. Qed.

Lemma word_split w : w = word (ts_of w) (rc_of w).
Proof. unfold word, ts_of, rc_of. rewrite N.mul_comm. apply N.div_mod. discriminate. Qed.

Lemma word_inj t r t' r' : r < two32 -> r' < two32 -> word t r = word t' r' -> t = t' /\ r = r'.
Proof.
  intros H H' E. split.
  - rewrite <- (ts_word t r H), E. apply ts_word; assumption.
  - rewrite <- (rc_word t r H), E. apply rc_word; assumption.
Qed.

Lemma word_not_invalid t r : 0 < t -> is_invalid (word t r) = false.
Proof. unfold is_invalid, word, INVALID_EVENT, two32; intros; apply N.eqb_neq; lia. Qed.

Lemma word_not_writing t r : 0 < t -> r < two32 -> is_in_writing (word t r) = false.
Proof. unfold is_in_writing, word, IN_WRITING, two32; intros; apply N.eqb_neq; lia. Qed.

Lemma word_inc t r : t < two32 -> r < two32 - 1 -> w_inc (word t r) = word t (r + 1).
Proof. unfold w_inc, word, two32, two64; intros; rewrite N.mod_small by lia; lia. Qed.

Lemma word_dec t r : t < two32 -> 0 < r -> r < two32 -> w_dec (word t r) = word t (r - 1).
Proof.
  unfold w_dec, word, two32, two64; intros.
  replace (t * 4294967296 + r + 18446744073709551616 - 1)
    with ((t * 4294967296 + r - 1) + 1 * 18446744073709551616) by lia.
  rewrite N.mod_add by lia. rewrite N.mod_small by lia. lia.
Qed.

Lemma ts_in_writing : ts_of IN_WRITING = 0.
Proof. reflexivity. Qed.

Lemma is_invalid_true w : is_invalid w = true <-> w = 0.
Proof. unfold is_invalid, INVALID_EVENT. apply N.eqb_eq. Qed.

Lemma is_in_writing_true w : is_in_writing w = true <-> w = IN_WRITING.
Proof. unfold is_in_writing. apply N.eqb_eq. Qed.

Lemma is_between_true w lo hi :
  is_between w lo hi = true <-> (w <> IN_WRITING /\ w <> 0 /\ lo < ts_of w /\ ts_of w < hi).
Proof.
  unfold is_between, is_in_writing, is_invalid, INVALID_EVENT.
  rewrite !andb_true_iff, !negb_true_iff, !N.eqb_neq, !N.ltb_lt. tauto.
Qed.

(** A word whose timestamp exceeds something is neither sentinel. *)
Lemma is_between_ts w lo hi : is_between w lo hi = (lo <? ts_of w) && (ts_of w <? hi).
Proof.
  unfold is_between. destruct (is_in_writing w) eqn:E1.
  - apply is_in_writing_true in E1; subst. rewrite ts_in_writing. cbn.
    destruct lo; reflexivity.
  - destruct (is_invalid w) eqn:E2; [|reflexivity].
    apply is_invalid_true in E2; subst. cbn. destruct lo; reflexivity.
Qed.
