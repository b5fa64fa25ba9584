(** Invariants for C114. *)
From Verif Require Import QxModel QxSpec.
From Coq Require Import Permutation.

Definition pings (l : list pulse) : list msg := map (fun _ => MNotify []) (filter (fun p => match p with PPing => true | _ => false end) l).
Definition news (l : list pulse) : nat := length (filter (fun p => match p with PNew => true | _ => false end) l).
Arguments pings : simpl never.
Arguments news : simpl never.
Arguments replies : simpl never.
Arguments notifies : simpl never.

Lemma pings_app a b : pings (a ++ b) = pings a ++ pings b.
Proof. unfold pings. rewrite filter_app, map_app. reflexivity. Qed.
Lemma news_app a b : news (a ++ b) = news a + news b.
Proof. unfold news. rewrite filter_app, app_length. reflexivity. Qed.
Lemma replies_app a b : replies (a ++ b) = replies a + replies b.
Proof. unfold replies. rewrite filter_app, app_length. reflexivity. Qed.
Lemma notifies_app a b : notifies (a ++ b) = notifies a + notifies b.
Proof. unfold notifies. rewrite filter_app, app_length. reflexivity. Qed.

Definition qreplies (l : list item) : nat := length (filter is_reply l).
Lemma qreplies_app a b : qreplies (a ++ b) = qreplies a + qreplies b.
Proof. unfold qreplies. rewrite filter_app, app_length. reflexivity. Qed.
Definition conts_of (r : bytes) (q : list item) : list msg := map (fun i => match i with IReply => MReply r | INotify bs => MNotify bs end) q.
Lemma conts_of_no_reply q r r' : existsb is_reply q = false -> conts_of r q = conts_of r' q.
Proof. induction q as [|[|b] q IH]; cbn; intros H; [reflexivity|discriminate|]. f_equal. apply IH, H. Qed.
Lemma conts_of_app r a b : conts_of r (a ++ b) = conts_of r a ++ conts_of r b.
Proof. apply map_app. Qed.
Lemma replies_conts r q : replies (conts_of r q) = qreplies q.
Proof. unfold replies, qreplies, conts_of. induction q as [|[|b] q IH]; cbn; auto. Qed.

Arguments conts_of : simpl never.
Arguments qreplies : simpl never.

Ltac sm := unfold pings, news, replies, notifies, conts_of, qreplies in *; cbn in *.

Record Inv (c : cfg) (s : st) : Prop := {
  i_body : filter with_content (got s) ++ filter with_content (conts_of (rbuf s) (queue s)) = filter with_content (acc s);
  i_all : Permutation (got s ++ conts_of (rbuf s) (queue s) ++ pings (pulses s)) (acc s);
  i_pool : pool s + notifies (queue s) = buffers c;
  i_one : qreplies (queue s) <= 1;
  i_reg : regd s = RNone -> pulses s = [];
  i_size : forall m, In m (conts_of (rbuf s) (queue s)) -> length (payload m) <= (match m with MReply _ => max_reply c | MNotify _ => max_notify c end);
  i_sizes : forall m, In m (got s) -> length (payload m) <= (match m with MReply _ => max_reply c | MNotify _ => max_notify c end)
}.

Lemma inv_answered c s a : Inv c s -> Inv c (answered s a).
Proof. intros [A B C D E F G]. constructor; auto. Qed.
Lemma inv_ub c s : Inv c s -> Inv c (set_ub s).
Proof. intros [A B C D E F G]. constructor; auto. Qed.

Lemma signal_none s p : regd s = RNone -> signal s p = pulses s.
Proof. unfold signal. intros ->. reflexivity. Qed.
Lemma pings_signal_new s : pings (signal s PNew) = pings (pulses s).
Proof. unfold signal. destruct (regd s); auto; rewrite pings_app; cbn; apply app_nil_r. Qed.

Lemma perm_mid {A} (a b c d : list A) x : Permutation (a ++ b ++ c) d -> Permutation (a ++ (b ++ [x]) ++ c) (d ++ [x]).
Proof.
  intros H. rewrite <- (app_assoc b). cbn. rewrite app_assoc. etransitivity; [symmetry; apply Permutation_middle|].
  rewrite <- app_assoc. etransitivity; [apply perm_skip, H|]. apply Permutation_cons_append.
Qed.

Lemma filter_reply_0 l : existsb is_reply l = false -> qreplies l = 0.
Proof. unfold qreplies. induction l as [|i l IH]; cbn; [auto|]. destruct (is_reply i); cbn; [discriminate|exact IH]. Qed.

Lemma inv_step c s l s' : Inv c s -> step c s l = Some s' -> Inv c s'.
Proof.
  intros I H. pose proof I as [A B C D E F G]. unfold step in H. destruct (ub s) eqn:U; [discriminate|].
  destruct l as [bs|bs| | | |].
  - injection H as <-. unfold notify.
    destruct (Nat.ltb_spec (max_notify c) (length bs)); [apply inv_answered, I|].
    destruct (empty bs && registered s) eqn:EM.
    + apply andb_true_iff in EM. destruct EM as [EM RG]. destruct bs; [|discriminate].
      assert (SG : signal s PPing = pulses s ++ [PPing]) by (unfold signal, registered in *; destruct (regd s); [discriminate|auto..]).
      constructor; cbn; auto.
      * rewrite filter_app. cbn. rewrite app_nil_r. exact A.
      * rewrite SG, pings_app. change (pings [PPing]) with [MNotify []]. rewrite !app_assoc. apply Permutation_app; [|apply Permutation_refl].
        rewrite <- app_assoc. exact B.
      * intros X. unfold registered in RG. rewrite X in RG. discriminate.
    + destruct (pool s) as [|p] eqn:P; [apply inv_answered, I|].
      constructor; cbn; auto.
      * rewrite conts_of_app, !filter_app, app_assoc, A. reflexivity.
      * rewrite conts_of_app, pings_signal_new. apply perm_mid, B.
      * rewrite notifies_app. sm. lia.
      * rewrite qreplies_app. sm. lia.
      * intros X. rewrite signal_none; auto.
      * intros m X. rewrite conts_of_app in X. apply in_app_iff in X. destruct X as [X|[<-|[]]]; [apply F, X|cbn; lia].
  - injection H as <-. unfold reply.
    destruct (Nat.ltb_spec (max_reply c) (length bs)); [apply inv_answered, I|].
    destruct (existsb is_reply (queue s)) eqn:X; [apply inv_ub, I|].
    rewrite (conts_of_no_reply _ _ bs X) in A, B, F.
    constructor; cbn; auto.
    * rewrite conts_of_app, !filter_app, app_assoc, A. reflexivity.
    * rewrite conts_of_app, pings_signal_new. apply perm_mid, B.
    * rewrite notifies_app. sm. lia.
    * rewrite qreplies_app, filter_reply_0 by exact X. sm. lia.
    * intros Y. rewrite signal_none; auto.
    * intros m Y. rewrite conts_of_app in Y. apply in_app_iff in Y. destruct Y as [Y|[<-|[]]]; [apply F, Y|cbn; lia].
  - destruct (regd s) eqn:R; try discriminate. injection H as <-. constructor; cbn; auto.
  - destruct (regd s) eqn:R; try discriminate. injection H as <-. constructor; cbn; auto.
    + destruct (empty (queue s)); [exact B|]. rewrite pings_app. change (pings [PNew]) with (@nil msg). rewrite app_nil_r. exact B.
    + discriminate.
  - unfold handle in H. destruct (pulses s) as [|[|] ps] eqn:PU; [discriminate| |].
    + destruct (queue s) as [|i q] eqn:Q.
      * injection H as <-. constructor; cbn; auto. intros R. specialize (E R). discriminate.
      * destruct (Nat.ltb_spec (receive c) (1 + length (payload (content s i)))); [injection H as <-; apply inv_ub, I|].
        injection H as <-. assert (CI : conts_of (rbuf s) (i :: q) = content s i :: conts_of (rbuf s) q) by (destruct i; reflexivity).
        rewrite CI in A, B, F. constructor; cbn; auto.
        -- rewrite filter_app, <- app_assoc. rewrite <- A. cbn. destruct (with_content (content s i)); reflexivity.
        -- rewrite <- app_assoc. exact B.
        -- destruct i; sm; lia.
        -- unfold qreplies in *. cbn in D. destruct (is_reply i); cbn in D; lia.
        -- intros R. specialize (E R). discriminate.
        -- intros m X. apply F. right. exact X.
        -- intros m X. apply in_app_iff in X. destruct X as [X|[<-|[]]]; [apply G, X|]. apply F. left. reflexivity.
    + injection H as <-. constructor; cbn; auto.
      * rewrite filter_app. cbn. rewrite app_nil_r. exact A.
      * change (pings (PPing :: ps)) with (MNotify [] :: pings ps) in B. rewrite <- app_assoc. cbn. etransitivity; [|exact B]. apply Permutation_app_head. apply Permutation_middle.
      * intros R. specialize (E R). discriminate.
      * intros m X. apply in_app_iff in X. destruct X as [X|[<-|[]]]; [apply G, X|cbn; lia].
  - injection H as <-. constructor; auto.
Qed.

Lemma inv_init c : Inv c (init c).
Proof. constructor; cbn; auto; try tauto; sm; try tauto; lia. Qed.

Theorem inv_reach c ok s : reach c ok s -> Inv c s.
Proof. induction 1; [apply inv_init|eapply inv_step; eauto]. Qed.

(** * Enough pulses *)
Definition enough (s : st) : Prop :=
  match regd s with
  | RNone => length (queue s) <= 1
  | RSet => length (queue s) <= news (pulses s) + 1
  | RDone => length (queue s) <= news (pulses s)
  end.
Lemma enough_reach c s : reach c one_early s -> enough s.
Proof.
  induction 1 as [|s l s' R IH OK H]; [cbn; lia|].
  pose proof (inv_reach _ _ _ R) as I.
  unfold step in H. destruct (ub s) eqn:U; [discriminate|]. unfold enough in *.
  destruct l as [bs|bs| | | |]; cbn in OK.
  - injection H as <-. unfold notify.
    destruct (max_notify c <? length bs); [exact IH|].
    destruct (empty bs && registered s) eqn:EM.
    + cbn. unfold signal. destruct (regd s); auto; rewrite news_app; lia.
    + destruct (pool s) as [|p] eqn:P; [exact IH|]. cbn. unfold signal. rewrite app_length. cbn.
      destruct (regd s); [rewrite OK by auto; cbn; lia|rewrite news_app; sm; lia..].
  - injection H as <-. unfold reply.
    destruct (max_reply c <? length bs); [exact IH|]. destruct (existsb is_reply (queue s)); [exact IH|].
    cbn. unfold signal. rewrite app_length. cbn.
    destruct (regd s); [rewrite OK by auto; cbn; lia|rewrite news_app; sm; lia..].
  - destruct (regd s) eqn:RG; try discriminate. injection H as <-. cbn. lia.
  - destruct (regd s) eqn:RG; try discriminate. injection H as <-. cbn. destruct (queue s); cbn; [lia|]. rewrite news_app. sm. lia.
  - unfold handle in H. pose proof (i_reg _ _ I) as E. destruct (pulses s) as [|[|] ps] eqn:PU; [discriminate| |].
    + destruct (queue s) as [|i q] eqn:Q.
      * injection H as <-. cbn. destruct (regd s); lia.
      * destruct (receive c <? 1 + length (payload (content s i))).
        -- injection H as <-. cbn. rewrite Q, PU. exact IH.
        -- injection H as <-. cbn in *. unfold news in *. cbn in *. destruct (regd s); lia.
    + injection H as <-. cbn. unfold news in *. cbn in IH. exact IH.
  - injection H as <-. exact IH.
Qed.

(** * Polite peers *)
Record Pol (s : st) : Prop := {
  p_ub : ub s = false;
  p_acc : replies (acc s) <= asked s;
  p_ask : asked s <= replies (got s) + 1;
  p_cnt : replies (got s) + qreplies (queue s) = replies (acc s)
}.
Lemma existsb_qreplies q : existsb is_reply q = true -> 0 < qreplies q.
Proof. unfold qreplies. induction q as [|i q IH]; cbn; [discriminate|]. destruct (is_reply i); cbn; [lia|exact IH]. Qed.

Lemma pol_reach c s : fits c -> reach c polite s -> Pol s.
Proof.
  intros FT. induction 1 as [|s l s' R IH OK H]; [constructor; sm; try lia; auto|].
  pose proof (inv_reach _ _ _ R) as I. destruct IH as [A B C D].
  unfold step in H. rewrite A in H.
  destruct l as [bs|bs| | | |]; cbn in OK.
  - injection H as <-. unfold notify.
    destruct (max_notify c <? length bs); [constructor; auto|].
    destruct (empty bs && registered s) eqn:EM; [constructor; cbn; auto; rewrite replies_app; sm; lia|].
    destruct (pool s) as [|p] eqn:P; [constructor; auto|]. constructor; cbn; auto; rewrite ?replies_app, ?qreplies_app; sm; lia.
  - injection H as <-. unfold reply.
    destruct (max_reply c <? length bs); [constructor; auto|].
    destruct (existsb is_reply (queue s)) eqn:X; [apply existsb_qreplies in X; lia|].
    constructor; cbn; auto; rewrite ?replies_app, ?qreplies_app; sm; lia.
  - destruct (regd s) eqn:RG; try discriminate. injection H as <-. constructor; auto.
  - destruct (regd s) eqn:RG; try discriminate. injection H as <-. constructor; auto.
  - unfold handle in H. destruct (pulses s) as [|[|] ps] eqn:PU; [discriminate| |].
    + destruct (queue s) as [|i q] eqn:Q.
      * injection H as <-. constructor; auto.
      * destruct (Nat.ltb_spec (receive c) (1 + length (payload (content s i)))) as [L|L].
        -- exfalso. pose proof (i_size _ _ I (content s i)) as SZ. rewrite Q in SZ. destruct FT as [F1 F2].
           assert (XX : In (content s i) (conts_of (rbuf s) (i :: q))) by (left; destruct i; reflexivity).
           specialize (SZ XX). destruct i; cbn in *; lia.
        -- injection H as <-. constructor; cbn; auto; rewrite ?replies_app; destruct i; sm; lia.
    + injection H as <-. constructor; cbn; auto; rewrite ?replies_app; sm; lia.
  - injection H as <-. constructor; cbn; auto; lia.
Qed.

(** * The order of all messages, if the client is registered first *)
(** The messages on their way, in the order in which the pulses will deliver them. *)
Fixpoint coming (q : list msg) (ps : list pulse) : list msg :=
  match ps with
  | [] => []
  | PPing :: ps => MNotify [] :: coming q ps
  | PNew :: ps => match q with [] => coming [] ps | m :: q => m :: coming q ps end
  end.
Lemma coming_ping q ps : coming q (ps ++ [PPing]) = coming q ps ++ [MNotify []].
Proof. revert q. induction ps as [|[|] ps IH]; intros q; cbn; [reflexivity| |]; [destruct q|]; cbn; rewrite ?IH; reflexivity. Qed.
Lemma coming_new q ps m : length q = news ps -> coming (q ++ [m]) (ps ++ [PNew]) = coming q ps ++ [m].
Proof.
  revert q. induction ps as [|[|] ps IH]; intros q L; cbn in *.
  - destruct q; [reflexivity|discriminate].
  - destruct q; [discriminate|]. cbn. rewrite IH; [reflexivity|]. unfold news in *. cbn in L. lia.
  - rewrite IH; [reflexivity|exact L].
Qed.

Lemma order_reach c s : reach c none_early s ->
  (regd s <> RDone -> queue s = [] /\ pulses s = []) /\ length (queue s) = news (pulses s) /\
  got s ++ coming (conts_of (rbuf s) (queue s)) (pulses s) = acc s.
Proof.
  induction 1 as [|s l s' R IH OK H]; [cbn; auto|]. destruct IH as (Z0 & L & O).
  unfold step in H. destruct (ub s) eqn:U; [discriminate|].
  assert (CL : forall r q, length (conts_of r q) = length q) by (intros; apply map_length).
  destruct l as [bs|bs| | | |]; cbn in OK.
  - injection H as <-. unfold notify.
    destruct (max_notify c <? length bs); [cbn; auto|].
    destruct (empty bs && registered s) eqn:EM.
    + destruct bs; [|discriminate]. cbn. unfold signal. rewrite OK. split; [congruence|]. rewrite coming_ping, app_assoc, O. split; [|reflexivity]. rewrite news_app. sm. lia.
    + destruct (pool s) as [|p] eqn:P; [cbn; auto|]. cbn. unfold signal. rewrite OK. split; [congruence|].
      split; [rewrite news_app, app_length; sm; lia|]. rewrite conts_of_app. change (conts_of (rbuf s) [INotify bs]) with [MNotify bs].
      rewrite coming_new by (rewrite CL; exact L). rewrite app_assoc, O. reflexivity.
  - injection H as <-. unfold reply.
    destruct (max_reply c <? length bs); [cbn; auto|]. destruct (existsb is_reply (queue s)) eqn:X; [cbn; auto|].
    rewrite (conts_of_no_reply _ _ bs X) in O.
    cbn. unfold signal. rewrite OK. split; [congruence|]. split; [rewrite news_app, app_length; sm; lia|]. rewrite conts_of_app. change (conts_of bs [IReply]) with [MReply bs].
    rewrite coming_new by (rewrite CL; exact L). rewrite app_assoc, O. reflexivity.
  - destruct (regd s) eqn:RG; try discriminate. injection H as <-. cbn. destruct (Z0 ltac:(discriminate)) as [Z1 Z2]. auto.
  - destruct (regd s) eqn:RG; try discriminate. injection H as <-. cbn. destruct (Z0 ltac:(discriminate)) as [Z1 Z2]. rewrite Z1, Z2 in *. cbn in *. auto.
  - unfold handle in H. destruct (pulses s) as [|[|] ps] eqn:PU; [discriminate| |].
    + destruct (queue s) as [|i q] eqn:Q; [cbn in L; discriminate|].
      assert (CI : conts_of (rbuf s) (i :: q) = content s i :: conts_of (rbuf s) q) by (destruct i; reflexivity).
      destruct (receive c <? 1 + length (payload (content s i))); injection H as <-; cbn [set_ub regd queue pulses rbuf got acc].
      * rewrite Q, PU. auto.
      * split; [intros X; destruct (Z0 X); discriminate|]. unfold news in *. cbn in L. split; [lia|].
        rewrite CI in O. cbn in O. rewrite <- app_assoc. exact O.
    + injection H as <-. cbn. split; [intros X; destruct (Z0 X); discriminate|]. cbn in O. split; [exact L|]. rewrite <- app_assoc. exact O.
  - injection H as <-. cbn. auto.
Qed.

(** * The pulse table *)
Local Open Scope Z_scope.
Lemma unpack_pack i g n : 0 <= i < W32 -> 0 <= g < W16 -> 0 <= n < W16 -> unpack (pack i g n) = (i, g, n).
Proof.
  unfold unpack, pack, W16, W32, W64. change (2 ^ 48) with 281474976710656. change (2 ^ 32) with 4294967296. intros I G N.
  set (v := n * 281474976710656 + g * 4294967296 + i).
  assert (V : 0 <= v < 18446744073709551616) by (unfold v; lia).
  rewrite (Z.mod_small v) by exact V.
  assert (E1 : v mod 4294967296 = i).
  { unfold v. replace (n * 281474976710656 + g * 4294967296 + i) with (i + (n * 65536 + g) * 4294967296) by lia. rewrite Z.mod_add by lia. apply Z.mod_small. lia. }
  assert (E2 : v / 4294967296 = n * 65536 + g).
  { unfold v. replace (n * 281474976710656 + g * 4294967296 + i) with (i + (n * 65536 + g) * 4294967296) by lia. rewrite Z.div_add by lia. rewrite Z.div_small by lia. lia. }
  assert (E3 : v / 281474976710656 = n).
  { unfold v. replace (n * 281474976710656 + g * 4294967296 + i) with ((i + g * 4294967296) + n * 281474976710656) by lia. rewrite Z.div_add by lia. rewrite Z.div_small by lia. lia. }
  rewrite E1, E2, E3. rewrite (Z.mod_small n) by lia.
  replace (n * 65536 + g) with (g + n * 65536) by lia. rewrite Z.mod_add by lia. rewrite Z.mod_small by lia. reflexivity.
Qed.

Record PInv (s : pst) : Prop := {
  pi_nonce : forall i x, nth_error (slots s) i = Some x -> s_nonce x = Z.of_nat (s_count x) mod W16;
  pi_len : (Z.of_nat (length (slots s)) < W32);
  pi_sent : forall p, In p (sent s) -> exists x ping, nth_error (slots s) (sp_index p) = Some x /\
      sp_val p = pack (Z.of_nat (sp_index p)) (sigv ping) (Z.of_nat (sp_count p) mod W16) /\
      (sp_count p <= s_count x)%nat /\ (sp_count p = s_count x -> s_ep x = Some (sp_ep p) \/ s_ep x = None);
  pi_calls : forall e pg m i k, In (e, pg, m, i, k) (calls s) -> e = m \/ (exists j, 0 < j /\ Z.of_nat k = j * W16)
}.

Lemma nth_upd {A} (l : list A) i j x y : nth_error (upd l i x) j = Some y -> (j = i /\ y = x) \/ (j <> i /\ nth_error l j = Some y).
Proof.
  revert i j. induction l as [|z l IH]; intros i j H; cbn in H; [destruct j; discriminate|].
  destruct i as [|i], j as [|j]; cbn in *; auto.
  - injection H as <-. auto.
  - destruct (IH _ _ H) as [[-> ->]|[N E]]; [auto|right; split; [lia|exact E]].
Qed.
Lemma nth_upd_same {A} (l : list A) i x y : nth_error l i = Some y -> nth_error (upd l i x) i = Some x.
Proof. revert i. induction l as [|z l IH]; intros [|i] H; cbn in *; try discriminate; auto. Qed.
Lemma nth_upd_other {A} (l : list A) i j x : j <> i -> nth_error (upd l i x) j = nth_error l j.
Proof. revert i j. induction l as [|z l IH]; intros [|i] [|j] H; cbn; auto; try congruence. Qed.
Lemma upd_length {A} (l : list A) i x : length (upd l i x) = length l.
Proof. revert i. induction l as [|z l IH]; intros [|i]; cbn; auto. Qed.

Lemma nonce_next k : (k mod W16 + 1) mod W16 = (k + 1) mod W16.
Proof. unfold W16. rewrite Z.add_mod_idemp_l by lia. reflexivity. Qed.

Lemma pinv_step s l s' : PInv s -> pstep s l = Some s' -> PInv s'.
Proof.
  intros [A B C D] H. destruct l as [e|i|i ping|]; cbn [pstep] in H.
  - injection H as <-. unfold preg. set (i := first_free (slots s) 0).
    destruct (nth_error (slots s) i) as [x|] eqn:N.
    + constructor; cbn; auto.
      * intros j y Y. apply nth_upd in Y. destruct Y as [[-> ->]|[_ Y]]; [|apply (A _ _ Y)]. cbn. rewrite (A _ _ N), nonce_next. f_equal. lia.
      * rewrite upd_length. exact B.
      * intros p P. destruct (C p P) as (y & pg & C1 & C2 & C3 & C4). destruct (Nat.eq_dec (sp_index p) i) as [E|E].
        -- rewrite E in *. rewrite C1 in N. injection N as ->. exists (mkSlot (Some e) ((s_nonce x + 1) mod W16) (S (s_count x))), pg.
           split; [eapply nth_upd_same; eauto|]. split; [exact C2|]. cbn. split; [lia|]. intros X. lia.
        -- exists y, pg. rewrite nth_upd_other by exact E. auto.
    + destruct (Z.eqb_spec (Z.of_nat (length (slots s))) (W32 - 1)); [constructor; auto|].
      constructor; cbn; auto.
      * intros j y Y. destruct (Nat.lt_ge_cases j (length (slots s))).
        -- rewrite nth_error_app1 in Y by lia. apply (A _ _ Y).
        -- rewrite nth_error_app2 in Y by lia. destruct (j - length (slots s))%nat as [|[|k]]; cbn in Y; try discriminate. injection Y as <-. reflexivity.
      * rewrite app_length. cbn. lia.
      * intros p P. destruct (C p P) as (y & pg & C1 & C2). exists y, pg. split; [|exact C2].
        rewrite nth_error_app1; [exact C1|]. apply nth_error_Some. congruence.
  - destruct (nth_error (slots s) i) as [x|] eqn:N; [|discriminate]. destruct (s_ep x) eqn:EP; [|discriminate]. injection H as <-.
    constructor; cbn; auto.
    + intros j y Y. apply nth_upd in Y. destruct Y as [[-> ->]|[_ Y]]; [|apply (A _ _ Y)]. cbn. apply (A _ _ N).
    + rewrite upd_length. exact B.
    + intros p P. destruct (C p P) as (y & pg & C1 & C2 & C3 & C4). destruct (Nat.eq_dec (sp_index p) i) as [E|E].
      * rewrite E in *. rewrite C1 in N. injection N as ->. exists (mkSlot None (s_nonce x) (s_count x)), pg.
        split; [eapply nth_upd_same; eauto|]. cbn. auto.
      * exists y, pg. rewrite nth_upd_other by exact E. auto.
  - destruct (nth_error (slots s) i) as [x|] eqn:N; [|discriminate]. destruct (s_ep x) eqn:EP; [|discriminate]. injection H as <-.
    constructor; cbn; auto. intros p P. apply in_app_iff in P. destruct P as [P|[<-|[]]]; [apply C, P|]. cbn.
    exists x, ping. split; [exact N|]. rewrite (A _ _ N). auto.
  - destruct (sent s) as [|p ps] eqn:SN; [discriminate|].
    destruct (C p ltac:(left; reflexivity)) as (x & pg & C1 & C2 & C3 & C4).
    assert (LT : Z.of_nat (sp_index p) < W32).
    { assert (sp_index p < length (slots s))%nat by (apply nth_error_Some; congruence). lia. }
    rewrite C2 in H. rewrite unpack_pack in H;
      [|lia|destruct pg; cbn; unfold W16; lia|apply Z.mod_pos_bound; unfold W16; lia].
    rewrite Nat2Z.id, C1 in H.
    assert (K : PInv (mkPst (slots s) ps (calls s))) by (constructor; cbn; auto; intros q Q; apply C; right; exact Q).
    destruct (s_ep x) as [e|] eqn:EP; [|injection H as <-; exact K].
    destruct (Z.eqb_spec (s_nonce x) (Z.of_nat (sp_count p) mod W16)) as [E|E]; injection H as <-; [|exact K].
    destruct K as [K1 K2 K3 K4]. constructor; cbn; auto.
    intros e' pg' m i k [X|X]; [|eapply D; eauto]. injection X as <- <- <- <- <-.
    destruct (Nat.eq_dec (sp_count p) (s_count x)) as [Q|Q].
    + left. destruct (C4 Q) as [C5|C5]; congruence.
    + right. rewrite (A _ _ C1) in E. exists (Z.of_nat (s_count x) / W16 - Z.of_nat (sp_count p) / W16).
      pose proof (Z.div_mod (Z.of_nat (s_count x)) W16 ltac:(unfold W16; lia)).
      pose proof (Z.div_mod (Z.of_nat (sp_count p)) W16 ltac:(unfold W16; lia)). unfold W16 in *. lia.
Qed.

Theorem pinv_reach s : preach s -> PInv s.
Proof.
  induction 1; [|eapply pinv_step; eauto]. constructor; cbn; try tauto; try reflexivity. intros [|i] x H; discriminate.
Qed.

(** One endpoint after the other in the first slot. *)
Fixpoint cycles (n : nat) : list plabel := match n with O => [] | S n => cycles n ++ [PUnreg 0; PReg 2] end.
Lemma prun_app s a b : prun s (a ++ b) = match prun s a with Some u => prun u b | None => None end.
Proof. revert s. induction a as [|l a IH]; intros s; cbn; [reflexivity|]. destruct (pstep s l); auto. Qed.
Lemma cycles_run n e k sn cs : (0 < n)%nat -> prun (mkPst [mkSlot (Some e) (Z.of_nat k mod W16) k] sn cs) (cycles n) =
  Some (mkPst [mkSlot (Some 2%nat) (Z.of_nat (k + n) mod W16) (k + n)] sn cs).
Proof.
  induction n as [|n IH]; intros P; [lia|]. cbn [cycles]. rewrite prun_app. destruct n as [|n].
  - cbn -[Z.modulo Z.of_nat]. rewrite nonce_next. repeat f_equal; lia.
  - rewrite IH by lia. cbn -[Z.modulo Z.of_nat]. rewrite nonce_next. repeat f_equal; lia.
Qed.
