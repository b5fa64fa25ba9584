(** Lemmas about the layout of arguments and about reading and writing shared memory. *)
From Verif Require Import Base DeplModel ArgModel ArgSpec.
Open Scope N_scope.

Lemma pow2_pos a : pow2 a -> 0 < a.
Proof. intros [k ->]. assert (2 ^ k <> 0) by (apply N.pow_nonzero; lia). lia. Qed.

Lemma pow2_divide a b : pow2 a -> pow2 b -> a <= b -> (a | b).
Proof.
  intros [i ->] [j ->] H.
  destruct (N.le_gt_cases i j) as [L|L].
  - exists (2 ^ (j - i)). rewrite <- N.pow_add_r. f_equal. lia.
  - assert (2 ^ j < 2 ^ i) by (apply N.pow_lt_mono_r; lia). lia.
Qed.

Lemma padding_div x a : 0 < a -> (a | x + padding x a).
Proof.
  intros P. unfold padding. apply N.mod_divide; [lia|].
  pose proof (N.div_mod x a ltac:(lia)) as E. pose proof (N.mod_lt x a ltac:(lia)) as L.
  destruct (N.eqb_spec (x mod a) 0) as [Z|Z].
  - rewrite N.add_0_r. exact Z.
  - replace (x + (a - x mod a)) with ((x / a + 1) * a).
    + apply N.mod_mul. lia.
    + rewrite N.mul_add_distr_r. rewrite (N.mul_comm (x / a)). lia.
Qed.

Lemma padding_lt x a : 0 < a -> padding x a < a.
Proof. intros P. unfold padding. pose proof (N.mod_lt x a ltac:(lia)). destruct (N.eqb_spec (x mod a) 0); lia. Qed.

Lemma padding_0 x a : 0 < a -> (a | x) -> padding x a = 0.
Proof. intros P D. unfold padding. apply N.mod_divide in D; [|lia]. rewrite D. reflexivity. Qed.

Lemma padding_shift d x a : 0 < a -> (a | d) -> padding (d + x) a = padding x a.
Proof.
  intros P [k ->]. unfold padding. rewrite N.add_comm, N.mod_add by lia. reflexivity.
Qed.

Lemma deser_shift ts : forall d o, (forall t, In t ts -> 0 < al t /\ (al t | d)) ->
  deser d o ts = map (fun q => d + q) (deser 0 o ts).
Proof.
  induction ts as [|t ts IH]; intros d o H; [reflexivity|].
  destruct (H t (or_introl eq_refl)) as [P D].
  cbn [deser deser_arg]. unfold deser_arg. rewrite (padding_shift d o) by assumption.
  rewrite (N.add_0_l o). cbn [map]. f_equal; [lia|].
  apply IH. intros u I. apply H. right. exact I.
Qed.

Lemma deser_length ts : forall d o, length (deser d o ts) = length ts.
Proof. induction ts as [|t ts IH]; intros d o; [reflexivity|]. cbn [deser deser_arg]. unfold deser_arg. cbn [length]. now rewrite IH. Qed.

(** Regions one after the other, from [lo], ending at [hi] *)
Inductive laid : N -> list ty -> list N -> N -> Prop :=
| laid_nil lo : laid lo [] [] lo
| laid_cons lo t ts p ps hi : lo <= p -> p < lo + al t -> (al t | p) -> laid (p + sz t) ts ps hi ->
    laid lo (t :: ts) (p :: ps) hi.

Lemma deser_laid ts : forall o a, (forall t, In t ts -> 0 < al t) ->
  laid o ts (deser 0 o ts) (fst (fold_left aggregate ts (o, a))).
Proof.
  induction ts as [|t ts IH]; intros o a H; [constructor|].
  pose proof (H t (or_introl eq_refl)) as P.
  cbn [deser fold_left aggregate]. unfold deser_arg. rewrite N.add_0_l.
  constructor.
  - lia.
  - pose proof (padding_lt o (al t) P). lia.
  - now apply padding_div.
  - replace (o + (padding o (al t) + sz t)) with (o + padding o (al t) + sz t) by lia.
    replace (o + (sz t + padding o (al t))) with (o + padding o (al t) + sz t) by lia.
    apply IH. intros u I. apply H. right. exact I.
Qed.

Lemma laid_shift d lo ts ps hi : (forall t, In t ts -> (al t | d)) -> laid lo ts ps hi ->
  laid (d + lo) ts (map (fun q => d + q) ps) (d + hi).
Proof.
  intros H L. induction L as [lo|lo t ts p ps hi G1 G2 G3 L IH]; [constructor|].
  cbn [map]. constructor.
  - lia.
  - lia.
  - apply N.divide_add_r; [apply H; left; reflexivity|exact G3].
  - replace (d + p + sz t) with (d + (p + sz t)) by lia. apply IH. intros u I. apply H. right. exact I.
Qed.

Lemma laid_le lo ts ps hi : laid lo ts ps hi -> lo <= hi.
Proof. induction 1; lia. Qed.

Lemma laid_nth lo ts ps hi : laid lo ts ps hi -> forall i t p, nth_error ts i = Some t -> nth_error ps i = Some p ->
  lo <= p /\ p + sz t <= hi /\ (al t | p).
Proof.
  induction 1 as [lo|lo t ts p ps hi G1 G2 G3 L IH]; intros i u r A B.
  - destruct i; discriminate.
  - pose proof (laid_le _ _ _ _ L). destruct i as [|i].
    + injection A as <-. injection B as <-. repeat split; [lia|lia|exact G3].
    + cbn [nth_error] in A, B. destruct (IH i u r A B) as [I1 [I2 I3]]. repeat split; [lia|lia|exact I3].
Qed.

Lemma laid_order lo ts ps hi : laid lo ts ps hi -> forall i j t p r, (i < j)%nat ->
  nth_error ts i = Some t -> nth_error ps i = Some p -> nth_error ps j = Some r -> p + sz t <= r.
Proof.
  induction 1 as [lo|lo t ts p ps hi G1 G2 G3 L IH]; intros i j u q r LT A B C.
  - destruct i; discriminate.
  - destruct j as [|j]; [lia|]. cbn [nth_error] in C. destruct i as [|i].
    + injection A as <-. injection B as <-.
      destruct (nth_error ts j) as [w|] eqn:W.
      * exact (proj1 (laid_nth _ _ _ _ L j w r W C)).
      * exfalso. apply nth_error_None in W. assert (j < length ps)%nat by (apply nth_error_Some; congruence).
        assert (length ps = length ts) by (clear -L; induction L; cbn [length]; congruence). lia.
    + cbn [nth_error] in A, B. apply (IH i j u q r); [lia|assumption..].
Qed.

Lemma laid_tight lo ts ps hi : laid lo ts ps hi -> forall i t p u r,
  nth_error ts i = Some t -> nth_error ps i = Some p ->
  nth_error ts (S i) = Some u -> nth_error ps (S i) = Some r -> r < p + sz t + al u.
Proof.
  induction 1 as [lo|lo t ts p ps hi G1 G2 G3 L IH]; intros i u q w r A B C D.
  - destruct i; discriminate.
  - cbn [nth_error] in C, D. destruct i as [|i].
    + injection A as <-. injection B as <-. inversion L; subst; [discriminate|].
      injection C as <-. injection D as <-. assumption.
    + apply (IH i u q w r); assumption.
Qed.

Lemma laid_end lo ts ps hi : laid lo ts ps hi -> forall t p, ts <> [] ->
  nth_error ts (pred (length ts)) = Some t -> nth_error ps (pred (length ts)) = Some p -> p + sz t = hi.
Proof.
  induction 1 as [lo|lo t ts p ps hi G1 G2 G3 L IH]; intros u q NE A B; [congruence|].
  destruct ts as [|t' ts].
  - injection A as <-. injection B as <-. inversion L; subst. reflexivity.
  - cbn [length pred nth_error] in *. apply (IH u q); [discriminate|assumption..].
Qed.

Lemma fold_align ts : forall o a, (a = 0 \/ pow2 a) -> (forall t, In t ts -> pow2 (al t)) ->
  let r := snd (fold_left aggregate ts (o, a)) in
  (r = a \/ exists t, In t ts /\ r = al t) /\ a <= r /\ (forall t, In t ts -> al t <= r).
Proof.
  induction ts as [|t ts IH]; intros o a A H.
  - cbn. split; [left; reflexivity|]. split; [lia|]. intros t [].
  - cbn [fold_left aggregate].
    assert (PT := H t (or_introl eq_refl)).
    assert (M : N.max a (al t) = 0 \/ pow2 (N.max a (al t))).
    { destruct (N.max_spec a (al t)) as [[_ ->]|[_ ->]]; [right; exact PT|exact A]. }
    assert (H' : forall u, In u ts -> pow2 (al u)) by (intros u I; apply H; right; exact I).
    specialize (IH (o + (sz t + padding o (al t))) (N.max a (al t)) M H'). cbn zeta in IH.
    destruct IH as [I1 [I2 I3]]. cbn zeta. split; [|split].
    + destruct I1 as [E|[u [U E]]].
      * rewrite E. destruct (N.max_spec a (al t)) as [[_ Q]|[_ Q]]; rewrite Q.
        -- right. exists t. split; [left; reflexivity|reflexivity].
        -- left. reflexivity.
      * right. exists u. split; [right; exact U|exact E].
    + lia.
    + intros u [<-|U]; [lia|apply I3, U].
Qed.

Lemma size_info_spec ts : ts <> [] -> Forall wf ts ->
  exists e, laid 0 ts (deser 0 0 ts) e /\
    e <= i_size (size_info ts) /\ i_size (size_info ts) < e + i_align (size_info ts) /\
    (i_align (size_info ts) | i_size (size_info ts)) /\
    (forall t, In t ts -> (al t | i_align (size_info ts))) /\
    (exists t, In t ts /\ al t = i_align (size_info ts)).
Proof.
  intros NE W. rewrite Forall_forall in W.
  assert (P : forall t, In t ts -> pow2 (al t)) by (intros t I; apply (W t I)).
  assert (P0 : forall t, In t ts -> 0 < al t) by (intros t I; apply pow2_pos, P, I).
  pose proof (deser_laid ts 0 0 P0) as L.
  pose proof (fold_align ts 0 0 (or_introl eq_refl) P) as F. cbn zeta in F.
  unfold size_info. destruct (fold_left aggregate ts (0, 0)) as [e a]. cbn [fst snd] in *.
  destruct F as [F1 [_ F3]].
  assert (EX : exists t, In t ts /\ al t = a).
  { destruct F1 as [E|[t [I E]]].
    - destruct ts as [|t ts]; [congruence|]. pose proof (F3 t (or_introl eq_refl)).
      pose proof (P0 t (or_introl eq_refl)). lia.
    - exists t. split; [exact I|congruence]. }
  destruct EX as [t0 [I0 E0]].
  assert (PA : pow2 a) by (rewrite <- E0; apply P, I0).
  assert (A0 := pow2_pos a PA).
  assert (DV : forall t, In t ts -> (al t | a)) by (intros t I; apply pow2_divide; [apply P, I|exact PA|apply F3, I]).
  exists e. split; [exact L|].
  destruct (N.eqb_spec a 0) as [Z|Z]; [lia|]. cbn [negb andb].
  pose proof (N.mod_lt e a Z) as ML. pose proof (N.div_mod e a Z) as DM.
  destruct (N.eqb_spec (e mod a) 0) as [Y|Y]; cbn [negb andb i_size i_align].
  - repeat split; [lia|lia| |exact DV|].
    + apply N.mod_divide; assumption.
    + exists t0. split; assumption.
  - repeat split; [lia|lia| |exact DV|].
    + exists (e / a + 1). rewrite N.mul_add_distr_r, (N.mul_comm (e / a)). lia.
    + exists t0. split; assumption.
Qed.

(** * Memory *)

Lemma read_length m o n : length (read m o n) = N.to_nat n.
Proof. unfold read. now rewrite map_length, seq_length. Qed.

Lemma read_ext m m' o n : (forall x, o <= x -> x < o + n -> m x = m' x) -> read m o n = read m' o n.
Proof.
  intros H. unfold read. apply map_ext_in. intros k K. apply in_seq in K. apply H; lia.
Qed.

Lemma read_write_same m o b : read (write m o b) o (N.of_nat (length b)) = b.
Proof.
  unfold read. rewrite Nat2N.id. apply nth_ext with (d := 0) (d' := 0).
  - now rewrite map_length, seq_length.
  - intros k K. rewrite map_length, seq_length in K.
    rewrite nth_indep with (d' := write m o b (o + N.of_nat 0)) by now rewrite map_length, seq_length.
    rewrite map_nth with (f := fun k => write m o b (o + N.of_nat k)). rewrite seq_nth by exact K.
    unfold write. cbn [Nat.add].
    replace ((o <=? o + N.of_nat k) && (o + N.of_nat k <? o + N.of_nat (length b))) with true.
    + f_equal. lia.
    + symmetry. apply andb_true_intro. split; [apply N.leb_le|apply N.ltb_lt]; lia.
Qed.

Lemma write_other m o b x : x < o \/ o + N.of_nat (length b) <= x -> write m o b x = m x.
Proof.
  intros H. unfold write.
  destruct (N.leb_spec o x); destruct (N.ltb_spec x (o + N.of_nat (length b))); cbn [andb]; [lia|reflexivity..].
Qed.

Lemma store_frame base lo ts ps hi : laid lo ts ps hi -> forall vals m x, sized ts vals -> base <= lo ->
  (base + x < lo \/ hi <= base + x) -> store m base ps vals x = m x.
Proof.
  induction 1 as [lo|lo t ts p ps hi G1 G2 G3 L IH]; intros vals m x SZ B H.
  - reflexivity.
  - inversion SZ as [|? v ? vs E SZ']; subst. cbn [store]. pose proof (laid_le _ _ _ _ L).
    rewrite IH; [|assumption|lia|lia]. apply write_other. rewrite E. lia.
Qed.

Lemma load_ext base lo ts ps hi : laid lo ts ps hi -> forall m m', base <= lo ->
  (forall x, lo <= base + x -> base + x < hi -> m x = m' x) -> load m base ts ps = load m' base ts ps.
Proof.
  induction 1 as [lo|lo t ts p ps hi G1 G2 G3 L IH]; intros m m' B H; [reflexivity|].
  pose proof (laid_le _ _ _ _ L). cbn [load]. f_equal.
  - apply read_ext. intros x X1 X2. apply H; lia.
  - apply IH; [lia|]. intros x X1 X2. apply H; lia.
Qed.

Lemma load_store base lo ts ps hi : laid lo ts ps hi -> forall vals m, sized ts vals -> base <= lo ->
  load (store m base ps vals) base ts ps = vals.
Proof.
  induction 1 as [lo|lo t ts p ps hi G1 G2 G3 L IH]; intros vals m SZ B.
  - inversion SZ. reflexivity.
  - inversion SZ as [|? v ? vs E SZ']; subst. cbn [store load]. f_equal.
    + rewrite read_ext with (m' := write m (p - base) v).
      * rewrite <- E. apply read_write_same.
      * intros x X1 X2. eapply store_frame; [exact L|exact SZ'|lia|]. left. lia.
    + apply IH; [assumption|lia].
Qed.

(** Reading and writing do not depend on where the region is mapped *)
Lemma load_base base ts ps : forall m, Forall (fun p => base <= p) ps ->
  load m base ts ps = load m 0 ts (map (fun p => p - base) ps).
Proof.
  revert ts. induction ps as [|p ps IH]; intros ts m F; [destruct ts; reflexivity|].
  inversion F; subst. destruct ts as [|t ts]; [reflexivity|]. cbn [load map]. rewrite N.sub_0_r. f_equal. now apply IH.
Qed.

Lemma store_base base ps : forall vals m, Forall (fun p => base <= p) ps ->
  store m base ps vals = store m 0 (map (fun p => p - base) ps) vals.
Proof.
  induction ps as [|p ps IH]; intros vals m F; [reflexivity|].
  inversion F; subst. destruct vals as [|v vs]; [reflexivity|]. cbn [store map]. rewrite N.sub_0_r. now apply IH.
Qed.

(** Pointers to the arguments of an element, as offsets in the region *)
Lemma element_ptrs base x ts : (forall t, In t ts -> 0 < al t /\ (al t | base + x)) ->
  Forall (fun p => base <= p) (deserialize ts (base + x)) /\
  map (fun p => p - base) (deserialize ts (base + x)) = map (fun q => x + q) (deser 0 0 ts).
Proof.
  intros H. unfold deserialize. rewrite deser_shift by exact H. split.
  - rewrite Forall_map. apply Forall_forall. intros q _. lia.
  - rewrite map_map. apply map_ext. intros q. lia.
Qed.
