(** C50 (instance specifier syntax) and C54 (identifiers and names are unique). *)
From Verif Require Import Base NamesModel.
Open Scope N_scope.

(** * Specification of C50: the documented grammar, written as a grammar.
    A path is a sequence of non-empty segments separated by single slashes, with an optional
    leading slash; segments consist of letters, digits and underscores; the first character of
    the whole name is not a digit. *)
Definition letter (c : N) : Prop := (65 <= c <= 90) \/ (97 <= c <= 122).
Definition digit (c : N) : Prop := 48 <= c <= 57.
Definition word_char (c : N) : Prop := letter c \/ digit c \/ c = 95.

Fixpoint join (segs : list (list N)) : list N :=
  match segs with
  | [] => []
  | [s] => s
  | s :: rest => s ++ [47] ++ join rest
  end.

Definition segment (s : list N) : Prop := s <> [] /\ Forall word_char s.

Definition in_grammar (name : list N) : Prop :=
  exists (lead : bool) (segs : list (list N)),
    segs <> [] /\ Forall segment segs
    /\ name = (if lead then [47] else []) ++ join segs
    /\ (forall c rest, name = c :: rest -> ~ digit c).

Lemma isalpha_spec c : isalpha c = true <-> letter c.
Proof. unfold isalpha, letter; lia. Qed.
Lemma isdigit_spec c : isdigit c = true <-> digit c.
Proof. unfold isdigit, digit; lia. Qed.

Lemma char_ok_false_spec c : char_ok false c = true <-> (word_char c \/ c = 47).
Proof.
  unfold char_ok, isalnum, word_char, underscore, slash.
  rewrite !orb_true_iff, isalpha_spec, isdigit_spec, !N.eqb_eq. tauto.
Qed.

Lemma char_ok_true_spec c : char_ok true c = true <-> ((word_char c \/ c = 47) /\ ~ digit c).
Proof.
  unfold char_ok, word_char, underscore, slash.
  rewrite !orb_true_iff, isalpha_spec, !N.eqb_eq. unfold letter, digit. lia.
Qed.

Lemma word_not_slash c : word_char c -> c <> 47.
Proof. unfold word_char, letter, digit; lia. Qed.

(** A list of good characters without "//" and not ending in '/', not starting with '/', is a
    join of segments; by induction with the general statement. *)
Lemma split_ok l :
  Forall (fun c => word_char c \/ c = 47) l -> l <> [] -> last l 0 <> 47 ->
  has_double_slash l = false ->
  exists lead segs, segs <> [] /\ Forall segment segs
    /\ l = (if lead : bool then [47] else []) ++ join segs.
Proof.
  induction l as [|c t IH]; intros F NE L D; [congruence|].
  inversion F as [|? ? Hc Ft]; subst.
  destruct t as [|d t'].
  - cbn in L. destruct Hc as [Hw|E]; [|congruence].
    exists false, [[c]]. split; [discriminate|]. split; [|reflexivity].
    constructor; [split; [discriminate|constructor; auto]|constructor].
  - assert (D' : has_double_slash (d :: t') = false).
    { cbn [has_double_slash] in D. apply orb_false_iff in D. exact (proj2 D). }
    assert (L' : last (d :: t') 0 <> 47) by exact L.
    destruct (IH Ft ltac:(discriminate) L' D') as (lead & segs & NS & FS & E).
    destruct Hc as [Hw|Ec].
    + destruct lead.
      * (* next is '/' : c is a segment of its own *)
        exists false, ([c] :: segs). split; [discriminate|]. split.
        { constructor; [split; [discriminate|constructor; auto]|exact FS]. }
        rewrite E. destruct segs as [|s ss]; [congruence|]. reflexivity.
      * destruct segs as [|s ss]; [congruence|].
        exists false, ((c :: s) :: ss). split; [discriminate|]. split.
        { inversion FS as [|? ? [Hs1 Hs2] FS']; subst. constructor; [|exact FS'].
          split; [discriminate|constructor; auto]. }
        rewrite E. destruct ss; reflexivity.
    + subst c. destruct lead.
      * exfalso. cbn [has_double_slash] in D. apply orb_false_iff in D. destruct D as [D _].
        cbn in E. injection E as E1 E2. subst d. discriminate D.
      * exists true, segs. split; [exact NS|]. split; [exact FS|]. rewrite E. reflexivity.
Qed.

Lemma has_double_app_word s l :
  Forall word_char s -> s <> [] -> has_double_slash (s ++ l) = has_double_slash l.
Proof.
  induction s as [|a s IH]; intros F NE; [congruence|].
  inversion F as [|? ? Ha Fs]; subst. cbn [app].
  assert (A : (a =? slash) = false) by (apply N.eqb_neq, word_not_slash, Ha).
  destruct s as [|b s'].
  - cbn [app]. destruct l as [|x l']; [reflexivity|]. cbn [has_double_slash]. rewrite A. reflexivity.
  - rewrite <- IH by (auto; discriminate). cbn [app has_double_slash]. rewrite A. reflexivity.
Qed.

Lemma join_facts segs :
  segs <> [] -> Forall segment segs ->
  Forall (fun c => word_char c \/ c = 47) (join segs)
  /\ (exists c r, join segs = c :: r /\ word_char c)
  /\ last (join segs) 0 <> 47 /\ has_double_slash (join segs) = false.
Proof.
  induction segs as [|s segs IH]; intros NE F; [congruence|].
  inversion F as [|? ? [Hs1 Hs2] Fr]; subst.
  assert (Hw : Forall (fun c => word_char c \/ c = 47) s)
    by (eapply Forall_impl; [|exact Hs2]; tauto).
  assert (First : forall l, exists c r, s ++ l = c :: r /\ word_char c).
  { destruct s as [|a s']; [congruence|]. intros l. exists a, (s' ++ l).
    inversion Hs2; subst. split; [reflexivity|assumption]. }
  destruct segs as [|s2 ss].
  - cbn [join]. split; [exact Hw|]. split.
    { destruct (First []) as (c & r & E & W). rewrite app_nil_r in E. eauto. }
    split.
    + assert (I : In (last s 0) s).
      { destruct (exists_last Hs1) as (l' & a & E). subst s.
        rewrite last_last. apply in_or_app; right; left; reflexivity. }
      apply word_not_slash. rewrite Forall_forall in Hs2. apply Hs2, I.
    + generalize (has_double_app_word s [] Hs2 Hs1). rewrite app_nil_r. intros ->. reflexivity.
  - assert (NE2 : s2 :: ss <> []) by discriminate.
    destruct (IH NE2 Fr) as (A & (c & r & E & W) & L & D).
    change (join (s :: s2 :: ss)) with (s ++ [47] ++ join (s2 :: ss)).
    set (J := join (s2 :: ss)) in *.
    split; [|split; [apply First|split]].
    + apply Forall_app; split; [exact Hw|]. constructor; [right; reflexivity|exact A].
    + assert (X : last (s ++ [47] ++ J) 0 = last J 0).
      { rewrite E. clear. rewrite app_assoc. generalize (s ++ [47]) as p. intros p.
        induction p as [|x p IHp]; [reflexivity|]. cbn [app].
        destruct (p ++ c :: r) eqn:Q; [destruct p; discriminate|]. exact IHp. }
      rewrite X. exact L.
    + rewrite has_double_app_word by assumption. cbn [app].
      rewrite E. rewrite E in D.
      change (((47 =? slash) && (c =? slash)) || has_double_slash (c :: r) = false).
      rewrite D. replace (c =? slash) with false
        by (symmetry; apply N.eqb_neq, word_not_slash, W). reflexivity.
Qed.

(** C50: InstanceSpecifier::Create accepts exactly the names of the grammar and keeps them. *)
Theorem C50_specifier_grammar :
  forall name,
    (in_grammar name -> create_specifier name = Some name)
    /\ (~ in_grammar name -> create_specifier name = None)
    /\ (forall s, create_specifier name = Some s -> s = name /\ in_grammar name).
Proof.
  intros name.
  assert (K : is_short_name_valid name = true <-> in_grammar name).
  { split.
    - intros V. destruct name as [|c t]; [discriminate|]. unfold is_short_name_valid in V.
      destruct (last (c :: t) 0 =? slash) eqn:L; [discriminate|].
      destruct (validate_chars true [c]) eqn:V1; [|discriminate]. cbn [negb] in V.
      destruct (validate_chars false t) eqn:V2; [|discriminate]. cbn [negb] in V.
      destruct (has_double_slash (c :: t)) eqn:D; [discriminate|].
      unfold validate_chars in V1, V2. cbn [forallb] in V1. rewrite andb_true_r in V1.
      apply char_ok_true_spec in V1. destruct V1 as [V1 ND].
      rewrite forallb_forall in V2.
      destruct (split_ok (c :: t)) as (lead & segs & NS & FS & E).
      + constructor; [exact V1|]. apply Forall_forall. intros x Hx.
        apply char_ok_false_spec, V2, Hx.
      + discriminate.
      + apply N.eqb_neq in L. exact L.
      + exact D.
      + exists lead, segs. split; [exact NS|]. split; [exact FS|]. split; [exact E|].
        intros c' r' E'. injection E' as -> _. exact ND.
    - intros (lead & segs & NS & FS & E & ND).
      destruct (join_facts segs NS FS) as (A & (c & r & EJ & W) & L & D).
      assert (NE : name <> []) by (rewrite E, EJ; destruct lead; discriminate).
      destruct name as [|x t]; [congruence|]. unfold is_short_name_valid.
      assert (Lx : (last (x :: t) 0 =? slash) = false).
      { apply N.eqb_neq. rewrite E, EJ. rewrite EJ in L. destruct lead; exact L. }
      rewrite Lx.
      assert (All : Forall (fun c => word_char c \/ c = 47) (x :: t)).
      { rewrite E. apply Forall_app; split; [destruct lead; constructor; auto|exact A]. }
      inversion All as [|? ? Hx Ht]; subst.
      assert (V1 : validate_chars true [x] = true).
      { unfold validate_chars; cbn [forallb]. rewrite andb_true_r.
        apply char_ok_true_spec. split; [exact Hx|]. apply (ND x t eq_refl). }
      assert (V2 : validate_chars false t = true).
      { unfold validate_chars. rewrite forallb_forall. rewrite Forall_forall in Ht.
        intros y Hy. apply char_ok_false_spec, Ht, Hy. }
      rewrite V1, V2. cbn [negb].
      assert (Dx : has_double_slash (x :: t) = false).
      { rewrite E. destruct lead; [|exact D]. cbn [app]. rewrite EJ. rewrite EJ in D.
        change (((47 =? slash) && (c =? slash)) || has_double_slash (c :: r) = false).
        rewrite D. replace (c =? slash) with false
          by (symmetry; apply N.eqb_neq, word_not_slash, W). reflexivity. }
      rewrite Dx. reflexivity. }
  unfold create_specifier. destruct (is_short_name_valid name) eqn:V.
  - assert (G : in_grammar name) by (apply K; reflexivity).
    split; [intros _; reflexivity|]. split; [intros H; contradiction|].
    intros s E; injection E as <-. split; [reflexivity|exact G].
  - split; [|split; [reflexivity|discriminate]].
    intros G. apply K in G. discriminate.
Qed.

(** "/abc/de_1" is accepted; "1a", "a//b", "a/", "" and "/" are not. *)
Example C50_example :
  create_specifier [47;97;98;99;47;100;101;95;49] = Some [47;97;98;99;47;100;101;95;49]
  /\ in_grammar [47;97;98;99;47;100;101;95;49]
  /\ create_specifier [49;97] = None /\ create_specifier [97;47;47;98] = None
  /\ create_specifier [97;47] = None /\ create_specifier [] = None /\ create_specifier [47] = None.
Proof.
  split; [reflexivity|]. split; [|repeat split].
  exact (proj2 (proj2 (proj2 (C50_specifier_grammar [47;97;98;99;47;100;101;95;49]))
                  [47;97;98;99;47;100;101;95;49] eq_refl)).
Qed.

(** * C54 *)

Lemma size_nat_bound n : n < 2 ^ N.of_nat (N.size_nat n).
Proof.
  destruct n as [|p]; [reflexivity|].
  generalize (N.size_gt (N.pos p)). intros H.
  replace (N.of_nat (N.size_nat (N.pos p))) with (N.size (N.pos p)); [exact H|].
  cbn [N.size N.size_nat]. rewrite <- (Pnat.Pos2Nat.id (Pos.size p)) at 1.
  clear. induction p; cbn [Pos.size Pos.size_nat]; lia.
Qed.

(** Value of a digit string. *)
Definition value (l : list N) : N := fold_left (fun v c => 10 * v + (c - 48)) l 0.

Lemma fold_app l1 l2 v :
  fold_left (fun v c => 10 * v + (c - 48)) (l1 ++ l2) v
  = fold_left (fun v c => 10 * v + (c - 48)) l2
      (fold_left (fun v c => 10 * v + (c - 48)) l1 v).
Proof. apply fold_left_app. Qed.

Lemma dec_digits_app fuel n acc : dec_digits fuel n acc = dec_digits fuel n [] ++ acc.
Proof.
  revert n acc. induction fuel as [|f IH]; intros n acc; [reflexivity|].
  cbn [dec_digits]. destruct (n / 10 =? 0); [reflexivity|].
  rewrite IH. rewrite (IH _ [_]). rewrite <- app_assoc. reflexivity.
Qed.

Lemma dec_digits_value fuel n :
  n < 2 ^ N.of_nat fuel -> value (dec_digits (S fuel) n []) = n.
Proof.
  revert n. induction fuel as [|f IH]; intros n L.
  - assert (n = 0) by (change (2 ^ N.of_nat 0) with 1 in L; lia). subst. reflexivity.
  - change (dec_digits (S (S f)) n [])
      with (if n / 10 =? 0 then [zero + n mod 10]
            else dec_digits (S f) (n / 10) [zero + n mod 10]).
    assert (M : n mod 10 < 10) by (apply N.mod_lt; lia).
    assert (Q : n = 10 * (n / 10) + n mod 10) by (apply N.div_mod; lia).
    destruct (N.eqb_spec (n / 10) 0) as [Z|NZ].
    + unfold value; cbn [fold_left]. unfold zero. lia.
    + rewrite dec_digits_app. unfold value. rewrite fold_app.
      fold (value (dec_digits (S f) (n / 10) [])). rewrite IH.
      * cbn [fold_left]. unfold zero. lia.
      * replace (N.of_nat (S f)) with (N.succ (N.of_nat f)) in L by lia.
        rewrite N.pow_succ_r' in L. lia.
Qed.

Lemma decimal_value n : value (decimal n) = n.
Proof. apply dec_digits_value, size_nat_bound. Qed.

Lemma value_zeros k l : value (repeat zero k ++ l) = value l.
Proof.
  unfold value. rewrite fold_app. f_equal.
  induction k as [|k IH]; [reflexivity|]. cbn [repeat fold_left]. exact IH.
Qed.

Lemma setw_value w n : value (setw w n) = n.
Proof. unfold setw. rewrite value_zeros. apply decimal_value. Qed.

Definition isdig (c : N) : Prop := 48 <= c <= 57.

Lemma dec_digits_dig fuel n acc : Forall isdig acc -> Forall isdig (dec_digits fuel n acc).
Proof.
  revert n acc. induction fuel as [|f IH]; intros n acc F; [exact F|].
  cbn [dec_digits].
  assert (M : n mod 10 < 10) by (apply N.mod_lt; lia).
  assert (F' : Forall isdig ((zero + n mod 10) :: acc)).
  { constructor; [unfold isdig, zero; lia|exact F]. }
  destruct (n / 10 =? 0); [exact F'|apply IH, F'].
Qed.

Lemma setw_dig w n : Forall isdig (setw w n).
Proof.
  unfold setw. apply Forall_app; split.
  - induction (w - length (decimal n))%nat as [|k IH]; [constructor|].
    cbn [repeat]. constructor; [unfold isdig, zero; lia|exact IH].
  - apply dec_digits_dig. constructor.
Qed.

(** Splitting two strings at the first non-digit is unique. *)
Definition nondig_or_end (l : list N) : Prop := match l with [] => True | c :: _ => ~ isdig c end.

Lemma dig_split a b r s :
  Forall isdig a -> Forall isdig b -> nondig_or_end r -> nondig_or_end s ->
  a ++ r = b ++ s -> a = b /\ r = s.
Proof.
  revert b. induction a as [|x a IH]; intros b Fa Fb Hr Hs E.
  - destruct b as [|y b]; [split; [reflexivity|exact E]|].
    exfalso. cbn in E. subst r. inversion Fb; subst. exact (Hr H1).
  - destruct b as [|y b].
    + exfalso. cbn in E. subst s. inversion Fa; subst. exact (Hs H1).
    + cbn in E. injection E as -> E. inversion Fa; inversion Fb; subst.
      destruct (IH b) as [-> ->]; auto.
Qed.

Lemma setw_inj w1 w2 m n r s :
  nondig_or_end r -> nondig_or_end s ->
  setw w1 m ++ r = setw w2 n ++ s -> m = n /\ r = s.
Proof.
  intros Hr Hs E.
  destruct (dig_split _ _ _ _ (setw_dig w1 m) (setw_dig w2 n) Hr Hs E) as [A B].
  split; [|exact B]. rewrite <- (setw_value w1 m), A. apply setw_value.
Qed.

Lemma minus_nondig l : nondig_or_end (minus :: l).
Proof. unfold nondig_or_end, isdig, minus. lia. Qed.

Lemma si_inj s i s' i' r r' :
  nondig_or_end r -> nondig_or_end r' ->
  service_and_instance s i ++ r = service_and_instance s' i' ++ r' -> s = s' /\ i = i' /\ r = r'.
Proof.
  unfold service_and_instance. rewrite <- !app_assoc. intros Hr Hr' E.
  destruct (setw_inj _ _ _ _ _ _ (minus_nondig _) (minus_nondig _) E) as [A B].
  apply (app_inv_head [minus]) in B.
  destruct (setw_inj _ _ _ _ _ _ Hr Hr' B) as [C D]. auto.
Qed.

Local Arguments setw : simpl never.
Local Arguments service_and_instance : simpl never.

(** C54: the identifiers of different (service id, instance id, kind) triples differ. *)
Theorem C54_resource_ids_unique :
  forall s i k s' i' k',
    s < two16 -> i < two16 -> s' < two16 -> i' < two16 ->
    resource_id s i k = resource_id s' i' k' -> s = s' /\ i = i' /\ k = k'.
Proof.
  assert (R : forall s i k, s < two16 -> i < two16 ->
    resource_id s i k = 16777216 * s + 256 * i + kind_code k).
  { intros s i k Hs Hi. unfold resource_id. rewrite !N.shiftl_mul_pow2.
    change (2 ^ 24) with 16777216. change (2 ^ 8) with 256.
    assert (kind_code k <= 2) by (destruct k; cbn; lia).
    unfold two16, two64 in *.
    rewrite (N.mod_small (s * 16777216)) by lia. rewrite (N.mod_small (i * 256)) by lia.
    rewrite N.mod_small by lia. lia. }
  intros s i k s' i' k' A B C D E. rewrite (R s i k A B), (R s' i' k' C D) in E.
  unfold two16 in *.
  assert (K1 : kind_code k <= 2) by (destruct k; cbn; lia).
  assert (K2 : kind_code k' <= 2) by (destruct k'; cbn; lia).
  assert (s = s') by lia. subst. assert (i = i') by lia. subst.
  split; [reflexivity|]. split; [reflexivity|].
  assert (kind_code k = kind_code k') by lia. destruct k, k'; cbn in *; congruence || lia.
Qed.

(** C54: different objects have different names: data, control QM, control ASIL-B, method memory
    of a proxy instance, usage and existence marker of any service and instance. *)
Theorem C54_names_unique :
  forall intervm o o', object_name intervm o = object_name intervm o' -> o = o'.
Proof.
  assert (N0 : nondig_or_end []) by exact I.
  assert (NB : forall b : bool, nondig_or_end (if b then s_b else [])).
  { intros [|]; [apply (minus_nondig [98])|exact I]. }
  intros intervm o o' E.
  assert (SP : forall l l', s_shm_prefix intervm ++ l = s_shm_prefix intervm ++ l' -> l = l')
    by (intros; eapply app_inv_head; eauto).
  destruct o as [s i|b s i|s i a c|s i|s i], o' as [s' i'|b' s' i'|s' i' a' c'|s' i'|s' i'];
    cbn [object_name] in E;
    try (apply SP in E); try (exfalso; destruct intervm; cbn in E; discriminate E);
    try (exfalso; cbn in E; discriminate E).
  - apply app_inv_head in E. rewrite <- (app_nil_r (service_and_instance s i)) in E.
    rewrite <- (app_nil_r (service_and_instance s' i')) in E.
    destruct (si_inj _ _ _ _ _ _ N0 N0 E) as (-> & -> & _). reflexivity.
  - apply app_inv_head in E.
    destruct (si_inj _ _ _ _ _ _ (NB b) (NB b') E) as (-> & -> & X).
    destruct b, b'; try reflexivity; discriminate X.
  - apply app_inv_head in E.
    destruct (si_inj _ _ _ _ _ _ (minus_nondig _) (minus_nondig _) E) as (-> & -> & X).
    apply (app_inv_head [minus]) in X.
    destruct (setw_inj _ _ _ _ _ _ (minus_nondig _) (minus_nondig _) X) as (-> & Y).
    apply (app_inv_head [minus]) in Y.
    rewrite <- (app_nil_r (setw 5 c)) in Y. rewrite <- (app_nil_r (setw 5 c')) in Y.
    destruct (setw_inj _ _ _ _ _ _ N0 N0 Y) as (-> & _). reflexivity.
  - apply app_inv_head in E. apply app_inv_head in E.
    rewrite <- (app_nil_r (service_and_instance s i)) in E.
    rewrite <- (app_nil_r (service_and_instance s' i')) in E.
    destruct (si_inj _ _ _ _ _ _ N0 N0 E) as (-> & -> & _). reflexivity.
  - apply app_inv_head in E. apply app_inv_head in E.
    rewrite <- (app_nil_r (service_and_instance s i)) in E.
    rewrite <- (app_nil_r (service_and_instance s' i')) in E.
    destruct (si_inj _ _ _ _ _ _ N0 N0 E) as (-> & -> & _). reflexivity.
Qed.

(** Identifier 0 means "not in a memory resource" (offset_ptr.h; shared_memory_resource.cpp:487-490
    states that an identifier can never be 0), yet the QM control region simulated for service 0,
    instance 0 gets it. *)
Theorem C54_never_the_sentinel_refuted :
  exists s i k, s < two16 /\ i < two16 /\ resource_id s i k = 0.
Proof. exists 0, 0, KControlQM. repeat split. Qed.

(** "/lola-ctl-0000000000000001-00016-b" *)
Example C54_example :
  object_name false (OControl true 1 16)
  = [47;108;111;108;97;45;99;116;108;45;
     48;48;48;48;48;48;48;48;48;48;48;48;48;48;48;49;45;48;48;48;49;54;45;98]
  /\ resource_id 1 16 KControlB = 16781313 /\ setw 5 123456 = [49;50;51;52;53;54].
Proof. repeat split. Qed.

Print Assumptions C50_specifier_grammar.
Print Assumptions C54_names_unique.
