From Coq Require Import List Arith Bool Lia Sorting.Sorted.
From Verif Require Import RxModel RxSpec.
Import ListNotations.

(** * Lists *)
Lemma run_reach c : forall ls s o s' o', reach c s -> run c s o ls = Some (s', o') -> reach c s'.
Proof.
  induction ls as [|l r IH]; intros s o s' o' R H; cbn in H.
  - injection H; intros; subst; exact R.
  - destruct (step c s l) as [[s1 o1]|] eqn:E; [|discriminate]. eapply IH; [eapply r_step; eauto|exact H].
Qed.

Lemma lastn_len n l : length (lastn n l) = Nat.min n (length l).
Proof. unfold lastn. rewrite skipn_length. lia. Qed.

Lemma skipn_skipn' {A} (l : list A) : forall a j, skipn a (skipn j l) = skipn (j + a) l.
Proof.
  induction l as [|y l IH]; intros a j; [now rewrite !skipn_nil|].
  destruct j; [reflexivity|]. cbn. apply IH.
Qed.

Lemma lastn_trim m b t : 1 <= m -> 1 <= length t -> lastn m (trim m b ++ t) = lastn m (b ++ t).
Proof.
  intros M T. unfold lastn, trim. rewrite !app_length, !skipn_app, !skipn_length, skipn_skipn'.
  f_equal; f_equal; lia.
Qed.

Lemma trim_len m b : 1 <= m -> length (trim m b) = Nat.min (m - 1) (length b).
Proof. intros M. unfold trim. rewrite skipn_length. lia. Qed.

Lemma push_all_closed cc m : forall got b b', 1 <= m -> got <> [] ->
  push_all cc m b got = Some b' -> b' = lastn m (b ++ got).
Proof.
  induction got as [|x r IH]; intros b b' M N H; [contradiction|].
  cbn [push_all] in H. destruct (length (trim m b) <? cc); [|discriminate].
  destruct r as [|y r].
  - cbn [push_all] in H. injection H as <-. rewrite <- (lastn_trim m b [x]) by (cbn; lia).
    unfold lastn. rewrite app_length, (trim_len m b M). cbn.
    replace (Nat.min (m - 1) (length b) + 1 - m) with 0 by lia. reflexivity.
  - apply IH in H; [|exact M|discriminate]. rewrite H, <- app_assoc. cbn.
    apply lastn_trim; cbn; lia.
Qed.

Lemma push_all_len cc m : forall got b b', length b <= cc -> push_all cc m b got = Some b' -> length b' <= cc.
Proof.
  induction got as [|x r IH]; intros b b' L H; cbn [push_all] in H.
  - injection H as <-; exact L.
  - destruct (length (trim m b) <? cc) eqn:E; [|discriminate]. apply Nat.ltb_lt in E.
    apply IH in H; [exact H|]. rewrite app_length; cbn [length]; lia.
Qed.

Lemma push_all_ok cc m : 1 <= m -> m <= cc -> forall got b, exists b', push_all cc m b got = Some b'.
Proof.
  intros M C. induction got as [|x r IH]; intros b; cbn [push_all]; [eauto|].
  assert (length (trim m b) <? cc = true) as ->; [|apply IH].
  apply Nat.ltb_lt. rewrite trim_len by exact M. lia.
Qed.

Lemma skipn_suffix (l : list nat) k : ends_with l (skipn k l).
Proof. exists (firstn k l). symmetry. apply firstn_skipn. Qed.

Lemma ends_with_skipn l suf : ends_with l suf -> suf = skipn (length l - length suf) l.
Proof.
  intros [p ->]. rewrite app_length. replace (length p + length suf - length suf) with (length p) by lia.
  rewrite skipn_app, skipn_all, Nat.sub_diag. reflexivity.
Qed.

Lemma ss_app_r (a b : list nat) : in_order (a ++ b) -> in_order b.
Proof.
  unfold in_order. induction a as [|x a IH]; cbn; intros H; [exact H|].
  inversion H; subst; auto.
Qed.
Lemma ss_app_l (a b : list nat) : in_order (a ++ b) -> in_order a.
Proof.
  unfold in_order. induction a as [|x a IH]; cbn; intros H; [constructor|].
  inversion H; subst. constructor; [auto|].
  match goal with F : Forall _ (a ++ b) |- _ => apply Forall_app in F; tauto end.
Qed.
Lemma ss_mid (a b d : list nat) : in_order (a ++ b ++ d) -> in_order (a ++ d).
Proof.
  unfold in_order. induction a as [|x a IH]; cbn; intros H.
  - eapply ss_app_r; exact H.
  - inversion H; subst. constructor; [auto|].
    rewrite !Forall_app in *. tauto.
Qed.
Lemma ss_snoc (a : list nat) x : in_order a -> Forall (fun y => y < x) a -> in_order (a ++ [x]).
Proof.
  unfold in_order. induction a as [|y a IH]; cbn; intros H F.
  - repeat constructor.
  - inversion H; subst; inversion F; subst. constructor; [auto|].
    apply Forall_app; split; [assumption|repeat constructor; assumption].
Qed.
Lemma ss_nodup (l : list nat) : in_order l -> NoDup l.
Proof.
  unfold in_order. induction l as [|x l IH]; intros H; constructor; inversion H; subst.
  - intros I. rewrite Forall_forall in H3. specialize (H3 _ I). lia.
  - auto.
Qed.

Definition cnt (l : list nat) (x : nat) := count_occ Nat.eq_dec l x.
Arguments cnt : simpl never.
Lemma cnt_app x a b : cnt (a ++ b) x = cnt a x + cnt b x.
Proof. apply count_occ_app. Qed.
Lemma cnt_skipn x k l : cnt (skipn k l) x <= cnt l x.
Proof. rewrite <- (firstn_skipn k l) at 2. rewrite cnt_app. lia. Qed.
Lemma cnt_cons x y l : cnt (y :: l) x = cnt [y] x + cnt l x.
Proof. exact (cnt_app x [y] l). Qed.
Lemma cnt_rem1 x y l : cnt (rem1 y l) x <= cnt l x.
Proof.
  induction l as [|z l IH]; [cbn; lia|]. cbn [rem1]. destruct (y =? z).
  - rewrite (cnt_cons x z l). lia.
  - rewrite (cnt_cons x z l), (cnt_cons x z (rem1 y l)). lia.
Qed.
Lemma rem1_len y l : existsb (Nat.eqb y) l = true -> S (length (rem1 y l)) = length l.
Proof.
  induction l as [|z l IH]; cbn; [discriminate|]. destruct (y =? z); cbn; [reflexivity|].
  intros H; rewrite IH; auto.
Qed.
Lemma cnt_out x l : ~ In x l -> cnt l x = 0.
Proof. intros H. now apply count_occ_not_In. Qed.

(** * What one call of [try_receive_samples] does *)
Lemma try_facts c s cc b m nok got b' :
  try_receive_samples c s cc b m nok = TOk got b' ->
  1 <= m /\ m <= cap c /\ nok = true /\ got = lastn (Nat.min m (cap c - held s)) (fresh s) /\
  held s < cap c /\ push_all cc m b got = Some b' /\
  length got <= m /\ length got + held s <= cap c /\
  (got = [] -> b' = b) /\ (got <> [] -> b' = lastn m (b ++ got)).
Proof.
  unfold try_receive_samples. destruct (m =? 0) eqn:M0; [discriminate|]. apply Nat.eqb_neq in M0.
  destruct (cap c <? m) eqn:MC; [discriminate|]. apply Nat.ltb_ge in MC.
  unfold native. destruct ((Nat.min m (cap c - held s) =? 0) || negb nok) eqn:G; [discriminate|].
  apply orb_false_iff in G as [G N]. apply Nat.eqb_neq in G. apply negb_false_iff in N.
  destruct (push_all cc m b (lastn (Nat.min m (cap c - held s)) (fresh s))) as [q|] eqn:P; [|discriminate].
  intros E; injection E as <- <-.
  pose proof (lastn_len (Nat.min m (cap c - held s)) (fresh s)) as L.
  repeat split; auto; try lia.
  - intros E. rewrite E in P. cbn in P. congruence.
  - intros E. eapply push_all_closed; eauto; lia.
Qed.

(** The container afterwards is the end of the old one followed by the new
    samples. *)
Lemma try_shape c s cc b m nok got b' :
  try_receive_samples c s cc b m nok = TOk got b' ->
  exists k, b' = skipn k b ++ got.
Proof.
  intros H. apply try_facts in H as (M & _ & _ & _ & _ & _ & L & _ & E0 & E1).
  destruct got as [|x r] eqn:G.
  - exists 0. rewrite E0 by reflexivity. now rewrite app_nil_r.
  - rewrite E1 by discriminate. exists (length b + length (x :: r) - m).
    unfold lastn. rewrite app_length, skipn_app.
    replace (length b + length (x :: r) - m - length b) with 0 by lia. reflexivity.
Qed.

(** * The invariant *)
Record inv (c : conf) (s : st) : Prop := {
  i_log : in_order (dlog s ++ fresh s);
  i_nxt : Forall (fun x => x < nxt s) (dlog s ++ fresh s);
  i_box : in_order (box s ++ fresh s);
  i_sbox : in_order (sbox s ++ fresh s);
  i_cnt : forall x, cnt (box s) x + cnt (sbox s) x + cnt (usr s) x + cnt (fresh s) x <= 1;
  i_sub : forall x, In x (box s) \/ In x (sbox s) \/ In x (usr s) -> In x (dlog s);
  i_held : held s <= cap c;
  i_cc : length (box s) <= ccap c;
  i_guard : guard s = true <-> receive_under_way s;
  i_recv : match work s with
           | ARecv PNew _ _ t => t = 0 /\ rlog s = []
           | ARecv _ nw mx t => valid c nw mx = true /\ t < nw /\ t = length (rlog s)
           | _ => True end;
  i_str : match work s with
          | AStream PNew => rlog s = ylog s ++ sbox s
          | AStream _ => rlog s = ylog s /\ sbox s = []
          | _ => sbox s = [] end;
  i_ord : in_order (rlog s ++ fresh s);
  i_ns : Forall (fun x => x < nxt s) (rlog s);
  i_wake : match work s with
           | ARecv PIn _ _ _ | AStream PIn => hdl s = true /\ (wk s = true \/ woken s = true)
           | ARecv PWait _ _ _ | AStream PWait =>
               hdl s = true /\ (wk s = true \/ woken s = true) /\
               (fresh s <> [] -> woken s = true \/ 0 < notes s)
           | AStream PNew => hdl s = true
           | _ => True end
}.

Lemma lastn_split n l : exists p, l = p ++ lastn n l.
Proof. destruct (skipn_suffix l (length l - n)) as [p E]. exists p. exact E. Qed.

Lemma took_order a (f : list nat) n : in_order (a ++ f) -> in_order ((a ++ lastn n f) ++ []).
Proof.
  intros H. rewrite app_nil_r. destruct (lastn_split n f) as [p E].
  rewrite E in H. apply ss_mid in H. exact H.
Qed.

Lemma skip_order k a (f : list nat) : in_order (a ++ f) -> in_order (skipn k a ++ f).
Proof.
  intros H. rewrite <- (firstn_skipn k a), <- app_assoc in H. now apply ss_app_r in H.
Qed.

Lemma inv_init c : inv c init.
Proof.
  constructor; cbn; auto; try constructor; try lia; try (intros; unfold cnt; cbn; lia); try tauto; try discriminate.
Qed.

Lemma inv_die c s : inv c s -> inv c (die s).
Proof. intros []; constructor; assumption. Qed.

(** Taking [got] into a container [b'] in place of [b]. *)
Lemma in_skipn (x : nat) k l : In x (skipn k l) -> In x l.
Proof. intros H. rewrite <- (firstn_skipn k l). apply in_or_app; auto. Qed.
Lemma in_lastn (x : nat) k l : In x (lastn k l) -> In x l.
Proof. apply in_skipn. Qed.

Lemma forall_lastn P n (l : list nat) : Forall P l -> Forall P (lastn n l).
Proof. rewrite !Forall_forall. intros H x I. apply H. eapply in_lastn; eauto. Qed.

Lemma inv_took c s cc b m nok got b' bx sb w g :
  inv c s -> try_receive_samples c s cc b m nok = TOk got b' ->
  (b = box s /\ cc = ccap c /\ bx = b' /\ sb = sbox s \/ b = sbox s /\ bx = box s /\ sb = b') ->
  (g = true <-> receive_under_way (took s got bx sb w g)) ->
  match w with
  | ARecv PWait nw mx t => valid c nw mx = true /\ t < nw /\ t = length (rlog s) + length got
  | ANone => True
  | AStream PWait => True | AStream PNew => True
  | _ => False end ->
  match w with
  | AStream PNew => rlog s ++ got = ylog s ++ sb
  | AStream _ => rlog s ++ got = ylog s /\ sb = []
  | _ => sb = [] end ->
  hdl s = true /\ (wk s = true \/ woken s = true) \/ w = ANone ->
  inv c (took s got bx sb w g).
Proof.
  intros IV T WH G HR HS HW.
  destruct (try_shape _ _ _ _ _ _ _ _ T) as [k SH].
  pose proof (try_facts _ _ _ _ _ _ _ _ T) as (M1 & M2 & _ & GE & HC & PA & L1 & L2 & _ & _).
  destruct IV as [A1 A2 A3 A4 A5 A6 A7 A8 A9 A10 A11 A12 A13 A14].
  assert (LK: forall (q : list nat), length (skipn k q) <= length q) by (intros; rewrite skipn_length; lia).
  constructor; cbn; auto.
  - rewrite GE. apply took_order; exact A1.
  - rewrite app_nil_r. apply Forall_app in A2 as [X Y]. apply Forall_app; split; [exact X|].
    rewrite GE. now apply forall_lastn.
  - destruct WH as [(-> & -> & -> & ->)|(-> & -> & ->)].
    + rewrite SH, GE. apply took_order. now apply skip_order.
    + rewrite app_nil_r. now apply ss_app_l in A3.
  - destruct WH as [(-> & -> & -> & ->)|(-> & -> & ->)].
    + rewrite app_nil_r. now apply ss_app_l in A4.
    + rewrite SH, GE. apply took_order. now apply skip_order.
  - intros x. specialize (A5 x). pose proof (cnt_skipn x (length (fresh s) - Nat.min m (cap c - held s)) (fresh s)) as U.
    fold (lastn (Nat.min m (cap c - held s)) (fresh s)) in U. rewrite <- GE in U.
    destruct WH as [(-> & -> & -> & ->)|(-> & -> & ->)]; rewrite SH, cnt_app; change (cnt [] x) with 0.
    + pose proof (cnt_skipn x k (box s)). lia.
    + pose proof (cnt_skipn x k (sbox s)). lia.
  - intros x I. apply in_or_app.
    destruct WH as [(-> & -> & -> & ->)|(-> & -> & ->)]; rewrite SH, in_app_iff in I.
    + destruct I as [[I|I]|[I|I]]; auto; left; apply A6; auto. left; eapply in_skipn; eauto.
    + destruct I as [I|[[I|I]|I]]; auto; left; apply A6; auto. right; left; eapply in_skipn; eauto.
  - unfold held in *. cbn. destruct WH as [(-> & -> & -> & ->)|(-> & -> & ->)];
      rewrite SH, app_length; [pose proof (LK (box s))|pose proof (LK (sbox s))]; lia.
  - destruct WH as [(-> & -> & -> & ->)|(-> & -> & ->)]; [|exact A8]. eapply push_all_len; eauto.
  - rewrite app_length. destruct w as [|[]|]; auto; try contradiction.
  - rewrite GE. apply took_order; exact A12.
  - apply Forall_app; split; [exact A13|]. rewrite GE. apply forall_lastn.
    apply Forall_app in A2; tauto.
  - destruct w as [|[] ? ? ?|[]]; auto; try contradiction; destruct HW as [[? ?]|?]; try discriminate; auto.
    all: repeat split; auto; intros E; contradiction.
Qed.

Ltac easyinv := constructor; cbn; auto; try tauto; try lia.

Lemma order_sub (a f : list nat) : in_order (a ++ f) -> in_order a.
Proof. apply ss_app_l. Qed.

Lemma step_inv c s l s' o : inv c s -> step c s l = Some (s', o) -> inv c s'.
Proof.
  intros IV H. unfold step in H. destruct (dead s); [discriminate|].
  destruct l; cbn in H.
  - (* send *)
    injection H as <- <-. destruct IV as [A1 A2 A3 A4 A5 A6 A7 A8 A9 A10 A11 A12 A13 A14].
    assert (FL: forall x, In x (dlog s ++ fresh s) -> x < nxt s) by (rewrite Forall_forall in A2; auto).
    assert (FR: Forall (fun y => y < nxt s) (fresh s)) by (apply Forall_app in A2; tauto).
    assert (DL: Forall (fun y => y < nxt s) (dlog s)) by (apply Forall_app in A2; tauto).
    rewrite Forall_forall in DL, FR.
    constructor; cbn; auto.
    + rewrite app_assoc. apply ss_snoc; [exact A1|exact A2].
    + rewrite app_assoc. apply Forall_app; split; [|repeat constructor].
      eapply Forall_impl; [|exact A2]. cbn. intros; lia.
    + rewrite app_assoc. apply ss_snoc; [exact A3|]. apply Forall_app; split; apply Forall_forall; auto.
    + rewrite app_assoc. apply ss_snoc; [exact A4|]. apply Forall_app; split; apply Forall_forall; auto.
    + intros x. specialize (A5 x). rewrite cnt_app. destruct (Nat.eq_dec x (nxt s)) as [->|N].
      * rewrite (cnt_out (nxt s) (box s)), (cnt_out (nxt s) (sbox s)), (cnt_out (nxt s) (usr s)),
          (cnt_out (nxt s) (fresh s)).
        { unfold cnt. cbn. destruct (Nat.eq_dec (nxt s) (nxt s)); lia. }
        all: intros I.
        { specialize (FR _ I); lia. }
        all: assert (K: nxt s < nxt s) by auto; lia.
      * replace (cnt [nxt s] x) with 0; [lia|]. symmetry. apply cnt_out. intros [E|[]]. congruence.
    + rewrite app_assoc. apply ss_snoc; [exact A12|]. apply Forall_app; split; [exact A13|apply Forall_forall; auto].
    + eapply Forall_impl; [|exact A13]. cbn. intros; lia.
    + destruct (work s) as [|[] ? ? ?|[]]; auto; destruct A14 as (? & ? & ?); repeat split; auto; right; lia.
  - (* notify *)
    destruct (notes s) as [|n] eqn:N; [discriminate|]. injection H as <- <-.
    destruct IV as [A1 A2 A3 A4 A5 A6 A7 A8 A9 A10 A11 A12 A13 A14].
    constructor; cbn; auto.
    destruct (work s) as [|[] ? ? ?|[]]; auto.
    + destruct A14 as (-> & Q). cbn. destruct (wk s); [tauto|]. split; auto.
    + destruct A14 as (-> & Q & R). cbn. destruct (wk s); [tauto|]. destruct Q as [Q|Q]; [discriminate|]. auto.
    + destruct A14 as (-> & Q). cbn. destruct (wk s); [tauto|]. split; auto.
    + destruct A14 as (-> & Q & R). cbn. destruct (wk s); [tauto|]. destruct Q as [Q|Q]; [discriminate|]. auto.
  - (* lose *)
    destruct (fresh s) as [|y r] eqn:F; [discriminate|]. injection H as <- <-.
    destruct IV as [A1 A2 A3 A4 A5 A6 A7 A8 A9 A10 A11 A12 A13 A14]. rewrite F in *.
    constructor; cbn; auto.
    + exact (ss_mid _ [y] r A1).
    + apply Forall_app in A2 as [X Y]. inversion Y; subst. apply Forall_app; split; auto.
    + exact (ss_mid _ [y] r A3).
    + exact (ss_mid _ [y] r A4).
    + intros x. specialize (A5 x). rewrite cnt_cons in A5. lia.
    + exact (ss_mid _ [y] r A12).
    + destruct (work s) as [|[] ? ? ?|[]]; auto; destruct A14 as (? & ? & R); repeat split; auto; intros _; apply R; discriminate.
  - (* try *)
    destruct (work s) as [|p nw mx t|p] eqn:W; [| |discriminate].
    + destruct (guard s) eqn:G; [injection H as <- <-; now apply inv_die|].
      destruct (try_receive_samples c s (ccap c) (box s) m nok) as [e| |got b] eqn:T.
      * injection H as <- <-; exact IV.
      * injection H as <- <-; now apply inv_die.
      * injection H as <- <-. eapply inv_took; eauto.
        -- unfold receive_under_way; cbn; intuition discriminate.
        -- pose proof (i_str _ _ IV) as S1. rewrite W in S1. exact S1.
    + destruct (guard s); [|discriminate]. injection H as <- <-; now apply inv_die.
  - (* start *)
    destruct (work s) eqn:W; try discriminate. injection H as <- <-.
    destruct IV as [A1 A2 A3 A4 A5 A6 A7 A8 A9 A10 A11 A12 A13 A14]. rewrite W in *.
    constructor; cbn; auto.
    + unfold receive_under_way in *; cbn in *. rewrite W in A9. tauto.
    + exact (ss_app_r _ _ A12).
  - (* cancel *)
    destruct (work s) as [|p nw mx t|p] eqn:W; try discriminate. injection H as <- <-.
    destruct IV as [A1 A2 A3 A4 A5 A6 A7 A8 A9 A10 A11 A12 A13 A14]. rewrite W in *.
    constructor; cbn; auto.
    + unfold receive_under_way in *; cbn in *. rewrite W in A9. exact A9.
    + destruct p; auto; tauto.
  - (* first part of poll *)
    destruct IV as [A1 A2 A3 A4 A5 A6 A7 A8 A9 A10 A11 A12 A13 A14].
    unfold receive_under_way in A9.
    assert (BR: forall nw mx t h, sbox s = [] -> valid c nw mx = true /\ t < nw /\ t = length (rlog s) ->
                h = true -> begin_recv s nw mx t h = (s', o) -> inv c s').
    { intros nw mx t h SB V -> E. unfold begin_recv in E.
      destruct (canc s); injection E as <- <-; constructor; cbn; auto.
      all: unfold receive_under_way; cbn; tauto || (intuition discriminate). }
    assert (FN: sbox s = [] -> inv c (finish s (box s))).
    { intros SB. constructor; cbn; auto. unfold receive_under_way; cbn; intuition discriminate. }
    destruct (work s) as [|[] nw mx t|[]] eqn:W; try discriminate.
    + unfold first_recv in H. destruct (negb (valid c nw mx)) eqn:V; [injection H as <- <-; auto|].
      apply negb_false_iff in V.
      destruct (guard s) eqn:G; [exfalso; destruct A9 as [A9 _]; auto|].
      destruct (negb (hdl s) && negb iok); [injection H as <- <-; auto|].
      injection H as H. destruct A10 as [-> RL]. apply (BR nw mx 0 true); auto. rewrite RL.
      repeat split; auto. unfold valid in V. apply andb_true_iff in V as [V _]. apply andb_true_iff in V as [V _].
      apply negb_true_iff, Nat.eqb_neq in V. lia.
    + injection H as H. apply (BR nw mx t (hdl s)); auto; tauto.
    + destruct (sbox s) as [|x r] eqn:SB; injection H as <- <-.
      * constructor; cbn; auto.
        all: try (unfold held in *; rewrite SB in A7; cbn in *; lia).
        all: try (rewrite app_nil_r in A11; auto).
      * constructor; cbn; auto.
        -- exact (ss_app_r [x] _ A4).
        -- intros z. specialize (A5 z). rewrite (cnt_cons z x r) in A5. rewrite (cnt_cons z x (usr s)). lia.
        -- intros z. specialize (A6 z). cbn in A6. tauto.
        -- unfold held in *; cbn. rewrite SB in A7. cbn in A7. lia.
        -- rewrite <- app_assoc. cbn. exact A11.
    + destruct A11 as [A11 SB]. rewrite SB in *. injection H as <- <-.
      constructor; cbn; auto.
      all: try (unfold held in *; rewrite SB in A7; cbn in *; lia).
      all: tauto.
  - (* second part of poll *)
    destruct (work s) as [|[] nw mx t|[]] eqn:W; try discriminate; injection H as H.
    + unfold poll_recv in H.
      destruct (try_receive_samples c s (ccap c) (box s) (mx - t) nok) as [e| |got b] eqn:T.
      * injection H as <- <-. destruct IV as [A1 A2 A3 A4 A5 A6 A7 A8 A9 A10 A11 A12 A13 A14]. rewrite W in *.
        constructor; cbn; auto. unfold receive_under_way; cbn; intuition discriminate.
      * injection H as <- <-; now apply inv_die.
      * pose proof (i_str _ _ IV) as S1. pose proof (i_recv _ _ IV) as S2. pose proof (i_wake _ _ IV) as S3.
        rewrite W in S1, S2, S3. destruct (nw <=? t + length got) eqn:Q; injection H as <- <-.
        -- eapply inv_took; eauto. unfold receive_under_way; cbn; intuition discriminate.
        -- apply Nat.leb_gt in Q. eapply inv_took; eauto.
           ++ unfold receive_under_way; cbn; tauto.
           ++ repeat split; try tauto; lia.
    + unfold poll_stream in H. pose proof (i_guard _ _ IV) as G1. unfold receive_under_way in G1. rewrite W in G1.
      destruct (guard s) eqn:G; [exfalso; tauto|].
      pose proof (i_str _ _ IV) as S1. pose proof (i_wake _ _ IV) as S3. rewrite W in S1, S3.
      destruct S1 as [S1 SB].
      destruct (try_receive_samples c s (cap c) (sbox s) (cap c) nok) as [e| |got b] eqn:T.
      * injection H as <- <-. destruct IV as [A1 A2 A3 A4 A5 A6 A7 A8 A9 A10 A11 A12 A13 A14]. rewrite W in *.
        constructor; cbn; auto; try (unfold receive_under_way; cbn; intuition discriminate); try tauto.
        rewrite SB, app_nil_r; tauto.
      * injection H as <- <-; now apply inv_die.
      * assert (BG: b = got).
        { destruct (try_shape _ _ _ _ _ _ _ _ T) as [k ->]. rewrite SB. now rewrite skipn_nil. }
        subst b. destruct got as [|x r].
        -- injection H as <- <-. eapply inv_took; eauto.
           rewrite app_nil_r. auto.
        -- injection H as <- <-.
           assert (K: inv c (took s (x :: r) (box s) (x :: r) (AStream PNew) false)).
           { eapply inv_took; eauto. now rewrite S1. }
           destruct K as [A1 A2 A3 A4 A5 A6 A7 A8 A9 A10 A11 A12 A13 A14]; cbn in *.
           constructor; cbn; auto.
           ++ exact (ss_app_r [x] _ A4).
           ++ intros z. specialize (A5 z). rewrite (cnt_cons z x r) in A5. rewrite (cnt_cons z x (usr s)). lia.
           ++ intros z I. apply A6. tauto.
           ++ unfold held in *; cbn in *. lia.
           ++ rewrite <- app_assoc. exact A11.
  - (* drop of the task *)
    destruct IV as [A1 A2 A3 A4 A5 A6 A7 A8 A9 A10 A11 A12 A13 A14]. unfold receive_under_way in A9.
    assert (FR: in_order (fresh s)) by exact (ss_app_r _ _ A3).
    destruct (work s) as [|[] nw mx t|[]] eqn:W; try discriminate; injection H as <- <-;
      constructor; cbn; auto; try lia; try (unfold receive_under_way; cbn; tauto);
      try (unfold receive_under_way; cbn; intuition discriminate);
      try (intros z; specialize (A5 z); unfold cnt in *; cbn; lia);
      try (intros z [[]|I]; apply A6; tauto);
      try (intros z [I|[[]|I]]; apply A6; tauto);
      unfold held in *; cbn; lia.
  - (* stream *)
    destruct (work s) eqn:W; try discriminate.
    destruct (negb (hdl s) && (guard s || negb iok)); injection H as <- <-; [now apply inv_die|].
    destruct IV as [A1 A2 A3 A4 A5 A6 A7 A8 A9 A10 A11 A12 A13 A14]. unfold receive_under_way in A9.
    rewrite W in *. rewrite A11 in *.
    constructor; cbn; auto; try (unfold held in *; cbn in *; rewrite ?A11 in *; cbn in *; lia).
  - (* pop *)
    destruct IV as [A1 A2 A3 A4 A5 A6 A7 A8 A9 A10 A11 A12 A13 A14].
    assert (Q: exists x r, box s = x :: r /\
      s' = upd s (fresh s) r (sbox s) (x :: usr s) (work s) (guard s) (hdl s) (wk s)
                               (woken s) (notes s) (dlog s) (rlog s) (ylog s)).
    { destruct (work s), (box s) as [|x r]; try discriminate; injection H as <- <-; eauto. }
    destruct Q as (x & r & B & ->). rewrite B in *.
    constructor; cbn; auto.
    + exact (ss_app_r [x] _ A3).
    + intros z. specialize (A5 z). rewrite (cnt_cons z x r) in A5. rewrite (cnt_cons z x (usr s)). lia.
    + intros z I. apply A6. cbn. tauto.
    + unfold held in *; cbn. rewrite B in A7. cbn in A7. lia.
    + cbn in A8. lia.
  - (* release *)
    destruct (existsb (Nat.eqb x) (usr s)) eqn:E; [|discriminate]. injection H as <- <-.
    destruct IV as [A1 A2 A3 A4 A5 A6 A7 A8 A9 A10 A11 A12 A13 A14].
    constructor; cbn; auto.
    + intros z. specialize (A5 z). pose proof (cnt_rem1 z x (usr s)). lia.
    + intros z I. apply A6. destruct I as [I|[I|I]]; auto. right; right.
      clear - I. induction (usr s) as [|y u IH]; [exact I|]. cbn in *. destruct (x =? y); cbn in *; tauto.
    + unfold held in *; cbn. apply rem1_len in E. lia.
  - (* unsubscribe *)
    destruct (work s); try discriminate. destruct (guard s); [injection H as <- <-; now apply inv_die|].
    destruct (held s =? 0); injection H as <- <-; now apply inv_die.
Qed.

Lemma reach_inv c s : reach c s -> inv c s.
Proof. induction 1; [apply inv_init|eapply step_inv; eauto]. Qed.
