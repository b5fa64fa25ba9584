(** C42, C63: requests and acknowledgements of the gateway. *)
From Verif Require Import Base GwReqModel.
Local Open Scope N_scope.

(** * Specification vocabulary *)

(** The request a thread is working on: number and sequence number *)
Definition active (p : pc) : option (N * N) :=
  match p with
  | Idle | Fetch => None
  | Register n q | Loop n q _ _ | Reset n q _ | Send n q _ | Find n q _ | Wait n q _ | Check n q _ _ | Erase n q _ => Some (n, q)
  end.
(** While a request is worked on fewer than 2^32 others begin. *)
Definition fresh (s : st) : Prop := forall t n q, active (at_ s t) = Some (n, q) -> count s <= n + 4294967296.
Definition always_fresh (l : list act) : Prop := forall l1 l2, l = l1 ++ l2 -> fresh (fst (runs init l1)).

(** * Proofs *)
Definition registered (p : pc) : option (N * N) := match p with Register _ _ => None | _ => active p end.

Lemma runs_snoc s l a : runs s (l ++ [a]) =
  let '(s1, tr) := runs s l in let '(s2, x) := exec s1 a in (s2, match x with Some e => tr ++ [e] | None => tr end).
Proof.
  revert s. induction l as [|b l IH]; intros s; cbn [app runs].
  - destruct (exec s a) as [s2 [e|]]; reflexivity.
  - destruct (exec s b) as [s1 x]. rewrite IH. destruct (runs s1 l) as [s2 tr]. destruct (exec s2 a) as [s3 [y|]], x; reflexivity.
Qed.

Lemma updt_eq f t p : updt f t p t = p.
Proof. unfold updt. rewrite Nat.eqb_refl. reflexivity. Qed.
Lemma updt_ne f t p u : u <> t -> updt f t p u = f u.
Proof. intros H. unfold updt. destruct (Nat.eqb_spec u t); congruence. Qed.
Lemma upd_eq {A} (f : N -> A) k v : upd f k v k = v.
Proof. unfold upd. rewrite N.eqb_refl. reflexivity. Qed.
Lemma upd_ne {A} (f : N -> A) k v x : x <> k -> upd f k v x = f x.
Proof. intros H. unfold upd. destruct (N.eqb_spec x k); congruence. Qed.

Lemma nth_snoc {A} (l : list A) x i y : nth_error (l ++ [x]) i = Some y -> (nth_error l i = Some y /\ (i < length l)%nat) \/ (i = length l /\ x = y).
Proof.
  intros H. destruct (Nat.lt_ge_cases i (length l)) as [L|L].
  - rewrite nth_error_app1 in H by exact L. auto.
  - rewrite nth_error_app2 in H by exact L. destruct (i - length l)%nat as [|k] eqn:E; cbn in H; [right; split; [lia|congruence]|destruct k; discriminate].
Qed.
Lemma nth_keep {A} (l : list A) x i y : nth_error l i = Some y -> nth_error (l ++ [x]) i = Some y.
Proof. intros H. rewrite nth_error_app1; [exact H|]. apply nth_error_Some. congruence. Qed.
Lemma nth_last {A} (l : list A) x : nth_error (l ++ [x]) (length l) = Some x.
Proof. rewrite nth_error_app2 by lia. rewrite Nat.sub_diag. reflexivity. Qed.

(** what the trace says about the state *)
Record tinv (s : st) (tr : list label) : Prop := mkT {
  t_pending : forall q, pending s q = Some true -> exists k, nth_error tr k = Some (LAck q) /\
      forall m t n, (k < m)%nat -> nth_error tr m <> Some (LBegin t n q);
  t_begun : forall t n q, registered (at_ s t) = Some (n, q) -> exists j, nth_error tr j = Some (LBegin t n q) /\
      (forall m n' q' r, (j < m)%nat -> nth_error tr m <> Some (LReturn t n' q' r)) /\
      (at_ s t = Erase n q Ok -> exists k, (j < k)%nat /\ nth_error tr k = Some (LAck q));
  t_returned : forall i t n q, nth_error tr i = Some (LReturn t n q Ok) -> exists j k, (j < k)%nat /\ (k < i)%nat /\
      nth_error tr j = Some (LBegin t n q) /\ nth_error tr k = Some (LAck q) /\
      (forall m n' q' r, (j < m)%nat -> (m < i)%nat -> nth_error tr m <> Some (LReturn t n' q' r)) }.

(** steps that add nothing to the trace *)
Lemma tinv_quiet s tr s' t : tinv s tr ->
  (forall q, pending s' q = Some true -> pending s q = Some true) ->
  (forall u, u <> t -> at_ s' u = at_ s u) ->
  (forall n q, registered (at_ s' t) = Some (n, q) -> registered (at_ s t) = Some (n, q) /\ (at_ s' t = Erase n q Ok -> at_ s t = Erase n q Ok \/ pending s q = Some true)) ->
  tinv s' tr.
Proof.
  intros [P B R] HP HA HT. constructor; [intros q Q; apply P; auto| |exact R].
  intros u n q U. destruct (Nat.eq_dec u t) as [->|N].
  - destruct (HT n q U) as [U' E]. destruct (B t n q U') as (j & J & NR & A). exists j. split; [exact J|]. split; [exact NR|].
    intros X. destruct (E X) as [E1|E1]; [exact (A E1)|]. destruct (P q E1) as (k & K & NB). exists k. split; [|exact K].
    destruct (Nat.lt_trichotomy j k) as [L|[L|L]]; [exact L|subst; congruence|]. destruct (NB j t n L J).
  - rewrite (HA u N) in U |- *. exact (B u n q U).
Qed.

(** labels without influence *)
Lemma tinv_more s tr e : tinv s tr -> (forall t n q, e <> LBegin t n q) -> (forall t n q r, e <> LReturn t n q r) -> tinv s (tr ++ [e]).
Proof.
  intros [P B R] NB' NR'. constructor.
  - intros q Q. destruct (P q Q) as (k & K & NB). exists k. split; [apply nth_keep; exact K|]. intros m u n L X. apply nth_snoc in X. destruct X as [[X _]|[_ X]]; [exact (NB m u n L X)|exact (NB' _ _ _ X)].
  - intros u n q U. destruct (B u n q U) as (j & J & NR & A). exists j. split; [apply nth_keep; exact J|]. split.
    + intros m n' q' r L X. apply nth_snoc in X. destruct X as [[X _]|[_ X]]; [exact (NR m n' q' r L X)|exact (NR' _ _ _ _ X)].
    + intros X. destruct (A X) as (k & L & K). exists k. split; [exact L|apply nth_keep; exact K].
  - intros i u n q X. apply nth_snoc in X. destruct X as [[X _]|[_ X]]; [|destruct (NR' _ _ _ _ X)].
    destruct (R i u n q X) as (j & k & L1 & L2 & J & K & NR). exists j, k. split; [exact L1|]. split; [exact L2|]. split; [apply nth_keep; exact J|]. split; [apply nth_keep; exact K|].
    intros m n' q' r A1 A2 Y. apply nth_snoc in Y. destruct Y as [[Y _]|[_ Y]]; [exact (NR m n' q' r A1 A2 Y)|exact (NR' _ _ _ _ Y)].
Qed.

Lemma tinv_step s tr a : tinv s tr -> let '(s', x) := exec s a in tinv s' (match x with Some e => tr ++ [e] | None => tr end).
Proof.
  intros I. pose proof I as [P B R]. destruct a as [t ok|q0|b].
  - cbn [exec]. destruct (at_ s t) as [| |n q|n q k r|n q k|n q k|n q k|n q k|n q k r|n q r] eqn:T.
    + destruct (connected s); [|exact I]. apply (tinv_quiet s tr _ t I); cbn; auto; [intros; apply updt_ne; auto|]. rewrite updt_eq. cbn. discriminate.
    + apply (tinv_quiet s tr _ t I); cbn; auto; [intros; apply updt_ne; auto|]. rewrite updt_eq. cbn. discriminate.
    + (* register *)
      constructor.
      * cbn. intros q1 Q. destruct (N.eq_dec q1 q) as [->|NE]; [rewrite upd_eq in Q; discriminate|]. rewrite upd_ne in Q by exact NE.
        destruct (P q1 Q) as (k & K & NB). exists k. split; [apply nth_keep; exact K|]. intros m u n1 L X. apply nth_snoc in X. destruct X as [[X _]|[_ X]]; [exact (NB m u n1 L X)|]. congruence.
      * cbn. intros u n1 q1 U. destruct (Nat.eq_dec u t) as [->|NE].
        -- rewrite updt_eq in *. cbn in U. injection U as <- <-. exists (length tr). split; [apply nth_last|]. split; [|discriminate].
           intros m n' q' r L X. apply nth_snoc in X. destruct X as [[_ X]|[_ X]]; [lia|discriminate].
        -- rewrite updt_ne in * by exact NE. destruct (B u n1 q1 U) as (j & J & NR & A). exists j. split; [apply nth_keep; exact J|]. split.
           ++ intros m n' q' r L X. apply nth_snoc in X. destruct X as [[X _]|[_ X]]; [exact (NR m n' q' r L X)|discriminate].
           ++ intros X. destruct (A X) as (k & L & K). exists k. split; [exact L|apply nth_keep; exact K].
      * intros i u n1 q1 X. apply nth_snoc in X. destruct X as [[X _]|[_ X]]; [|discriminate].
        destruct (R i u n1 q1 X) as (j & k & L1 & L2 & J & K & NR). exists j, k. split; [exact L1|]. split; [exact L2|]. split; [apply nth_keep; exact J|]. split; [apply nth_keep; exact K|].
        intros m n' q' r A1 A2 Y. apply nth_snoc in Y. destruct Y as [[Y _]|[_ Y]]; [exact (NR m n' q' r A1 A2 Y)|discriminate].
    + apply (tinv_quiet s tr _ t I); destruct (k <? kMaxSendRetries)%nat; destruct (connected s); cbn; auto; try (intros; apply updt_ne; auto);
        rewrite updt_eq; try (destruct k; cbn); intros n1 q1 X; injection X as <- <-; rewrite T; (split; [reflexivity|]); intros X; discriminate.
    + apply (tinv_quiet s tr _ t I).
      * intros q1 Q. destruct (pending s q) as [b|] eqn:PQ; cbn in Q; [|exact Q]. destruct (N.eq_dec q1 q) as [->|NE]; [rewrite upd_eq in Q; discriminate|rewrite upd_ne in Q by exact NE; exact Q].
      * intros u NE. destruct (pending s q); cbn; apply updt_ne; exact NE.
      * intros n1 q1 X. rewrite T. destruct (pending s q); cbn in *; rewrite updt_eq in *; cbn in X; (split; [exact X|discriminate]).
    + destruct ok.
      * (* sent *)
        apply (fun H => tinv_more s tr (LSent t n q) H ltac:(discriminate) ltac:(discriminate)) in I.
        apply (tinv_quiet s _ _ t I); cbn; auto; [intros; apply updt_ne; auto|]. rewrite updt_eq, T. cbn. intros n1 q1 X. split; [exact X|discriminate].
      * apply (tinv_quiet s tr _ t I); cbn; auto; [intros; apply updt_ne; auto|]. rewrite updt_eq, T. cbn. intros n1 q1 X. split; [exact X|discriminate].
    + apply (tinv_quiet s tr _ t I); destruct (pending s q); cbn; auto; try (intros; apply updt_ne; auto); rewrite updt_eq, T; cbn; intros n1 q1 X; (split; [exact X|discriminate]).
    + destruct (pending s q) as [[|]|] eqn:PQ.
      * apply (tinv_quiet s tr _ t I); cbn; auto; [intros; apply updt_ne; auto|]. rewrite updt_eq, T. cbn. intros n1 q1 X. split; [exact X|]. injection X as <- <-. auto.
      * apply (tinv_quiet s tr _ t I); cbn; auto; [intros; apply updt_ne; auto|]. rewrite updt_eq, T. cbn. intros n1 q1 X. split; [exact X|discriminate].
      * apply (tinv_quiet s tr _ t I); cbn; auto.
    + apply (tinv_quiet s tr _ t I); destruct (connected s); cbn; auto; try (intros; apply updt_ne; auto); rewrite updt_eq, T; cbn; intros n1 q1 X; (split; [exact X|discriminate]).
    + (* return *)
      constructor.
      * cbn. intros q1 Q. destruct (N.eq_dec q1 q) as [->|NE]; [rewrite upd_eq in Q; discriminate|]. rewrite upd_ne in Q by exact NE.
        destruct (P q1 Q) as (k & K & NB). exists k. split; [apply nth_keep; exact K|]. intros m u n1 L X. apply nth_snoc in X. destruct X as [[X _]|[_ X]]; [exact (NB m u n1 L X)|discriminate].
      * cbn. intros u n1 q1 U. destruct (Nat.eq_dec u t) as [->|NE]; [rewrite updt_eq in U; discriminate|].
        rewrite updt_ne in * by exact NE. destruct (B u n1 q1 U) as (j & J & NR & A). exists j. split; [apply nth_keep; exact J|]. split.
        -- intros m n' q' r' L X. apply nth_snoc in X. destruct X as [[X _]|[_ X]]; [exact (NR m n' q' r' L X)|congruence].
        -- intros X. destruct (A X) as (k & L & K). exists k. split; [exact L|apply nth_keep; exact K].
      * intros i u n1 q1 X. apply nth_snoc in X. destruct X as [[X Li]|[-> X]].
        -- destruct (R i u n1 q1 X) as (j & k & L1 & L2 & J & K & NR). exists j, k. split; [exact L1|]. split; [exact L2|]. split; [apply nth_keep; exact J|]. split; [apply nth_keep; exact K|].
           intros m n' q' r' A1 A2 Y. apply nth_snoc in Y. destruct Y as [[Y _]|[-> Y]]; [exact (NR m n' q' r' A1 A2 Y)|lia].
        -- injection X as <- <- <- ->. destruct (B t n q) as (j & J & NR & A); [rewrite T; reflexivity|]. destruct (A T) as (k & L & K).
           exists j, k. split; [exact L|]. split; [apply nth_error_Some; congruence|]. split; [apply nth_keep; exact J|]. split; [apply nth_keep; exact K|].
           intros m n' q' r' A1 A2 Y. apply nth_snoc in Y. destruct Y as [[Y _]|[-> _]]; [exact (NR m n' q' r' A1 Y)|lia].
  - cbn [exec]. apply (fun H => tinv_more s tr (LAck q0) H ltac:(discriminate) ltac:(discriminate)) in I. destruct (pending s q0) eqn:PQ; [|exact I].
    destruct I as [P' B' R']. constructor; [|exact B'|exact R']. cbn. intros q1 Q. destruct (N.eq_dec q1 q0) as [->|NE]; [|rewrite upd_ne in Q by exact NE; exact (P' q1 Q)].
    exists (length tr). split; [apply nth_last|]. intros m t n L X. apply nth_snoc in X. destruct X as [[_ X]|[X _]]; lia.
  - cbn [exec]. constructor; [exact P|exact B|exact R].
Qed.

Lemma tinv_runs l : forall s tr, runs init l = (s, tr) -> tinv s tr.
Proof.
  induction l as [|a l IH] using rev_ind; intros s tr H.
  - injection H as <- <-. constructor; cbn; try discriminate. intros i t n q X. destruct i; discriminate.
  - rewrite runs_snoc in H. destruct (runs init l) as [s1 tr1]. pose proof (tinv_step s1 tr1 a (IH _ _ eq_refl)) as S.
    destruct (exec s1 a) as [s2 x]. injection H as <- <-. exact S.
Qed.

(** * C42 *)

(** SendRequest returns success only if, after the request was registered and before it returned, an
    acknowledgement with its sequence number was received - whatever other threads do, whatever the other side
    sends, however the connection behaves. *)
Theorem C42_success_means_acknowledged : forall l s tr i t n q, runs init l = (s, tr) ->
  nth_error tr i = Some (LReturn t n q Ok) ->
  exists j k, (j < k)%nat /\ (k < i)%nat /\ nth_error tr j = Some (LBegin t n q) /\ nth_error tr k = Some (LAck q) /\
    forall m n' q' r, (j < m)%nat -> (m < i)%nat -> nth_error tr m <> Some (LReturn t n' q' r).
Proof. intros l s tr i t n q H. destruct (tinv_runs l s tr H) as [_ _ R]. apply R. Qed.

(** distinct sequence numbers *)
Record dinv (s : st) : Prop := mkD {
  d_next : next s = (count s + 1) mod two32;
  d_seq : forall t n q, active (at_ s t) = Some (n, q) -> q = (n + 1) mod two32 /\ n < count s;
  d_uniq : forall t u n q n' q', t <> u -> active (at_ s t) = Some (n, q) -> active (at_ s u) = Some (n', q') -> n <> n';
  d_pending : forall t n q, registered (at_ s t) = Some (n, q) -> pending s q <> None;
  d_ub : ub s = false }.

Lemma same_mod a b : (a + 1) mod two32 = (b + 1) mod two32 -> a < b + two32 -> b < a + two32 -> a = b.
Proof.
  intros H L1 L2. pose proof (N.div_mod (a + 1) two32 ltac:(discriminate)). pose proof (N.div_mod (b + 1) two32 ltac:(discriminate)).
  pose proof (N.mod_lt (a + 1) two32 ltac:(discriminate)). pose proof (N.mod_lt (b + 1) two32 ltac:(discriminate)).
  unfold two32 in *. set (x := (a + 1) / 4294967296) in *. set (y := (b + 1) / 4294967296) in *. rewrite H in *.
  assert (x = y) by lia. lia.
Qed.

Lemma distinct s t u n q n' q' : dinv s -> fresh s -> t <> u -> active (at_ s t) = Some (n, q) -> active (at_ s u) = Some (n', q') -> q <> q'.
Proof.
  intros [_ Q U _ _] F NE A A' E. destruct (Q _ _ _ A) as [-> L], (Q _ _ _ A') as [-> L']. pose proof (F _ _ _ A). pose proof (F _ _ _ A').
  apply (U t u n _ n' _ NE A A'). apply same_mod; [exact E| |]; unfold two32; lia.
Qed.

Lemma registered_active p n q : registered p = Some (n, q) -> active p = Some (n, q).
Proof. destruct p; cbn; auto; discriminate. Qed.

(** a thread moves on within its request, the others' entries stay *)
Lemma dinv_move s s' t : dinv s -> fresh s -> next s' = next s -> count s' = count s -> ub s' = false ->
  (forall u, u <> t -> at_ s' u = at_ s u) ->
  (forall n q, active (at_ s' t) = Some (n, q) -> active (at_ s t) = Some (n, q)) ->
  (forall q, pending s' q = None -> pending s q = None \/ (exists n, active (at_ s t) = Some (n, q) /\ registered (at_ s' t) = None)) ->
  (forall n q, registered (at_ s' t) = Some (n, q) -> pending s' q <> None) ->
  dinv s'.
Proof.
  intros D F E1 E2 E3 HA HT HP HR. pose proof D as [DN DS DU DP DB]. constructor.
  - congruence.
  - intros u n q A. rewrite E2. destruct (Nat.eq_dec u t) as [->|NE]; [exact (DS t n q (HT n q A))|]. rewrite HA in A by exact NE. exact (DS u n q A).
  - intros u v n q n' q' NE A A'. assert (B : active (at_ s u) = Some (n, q)) by (destruct (Nat.eq_dec u t) as [->|X]; [auto|rewrite HA in A by exact X; exact A]).
    assert (B' : active (at_ s v) = Some (n', q')) by (destruct (Nat.eq_dec v t) as [->|X]; [auto|rewrite HA in A' by exact X; exact A']).
    exact (DU u v n q n' q' NE B B').
  - intros u n q R. destruct (Nat.eq_dec u t) as [->|NE]; [exact (HR n q R)|]. rewrite HA in R by exact NE. intros X.
    destruct (HP q X) as [Y|(n' & Y & _)]; [exact (DP u n q R Y)|]. apply registered_active in R. exact (distinct s u t n q n' q D F NE R Y eq_refl).
  - exact E3.
Qed.

Lemma dinv_step s a : dinv s -> fresh s -> dinv (fst (exec s a)).
Proof.
  intros D F. pose proof D as [DN DS DU DP DB]. destruct a as [t ok|q0|b]; cbn [exec].
  - destruct (at_ s t) as [| |n q|n q k r|n q k|n q k|n q k|n q k|n q k r|n q r] eqn:T.
    + destruct (connected s); [|exact D]. apply (dinv_move s _ t D F); cbn; auto; [intros; apply updt_ne; auto| |]; rewrite updt_eq; cbn; discriminate.
    + cbn [fst]. constructor; cbn.
      * rewrite DN. unfold two32. rewrite N.add_mod_idemp_l by discriminate. reflexivity.
      * intros u n q A. destruct (Nat.eq_dec u t) as [->|NE]; [rewrite updt_eq in A; cbn in A; injection A as <- <-; split; [exact DN|lia]|].
        rewrite updt_ne in A by exact NE. destruct (DS u n q A). split; [assumption|lia].
      * intros u v n q n' q' NE A A'. destruct (Nat.eq_dec u t) as [->|Nu]; destruct (Nat.eq_dec v t) as [->|Nv]; try congruence.
        -- rewrite updt_eq in A. rewrite updt_ne in A' by exact Nv. cbn in A. injection A as <- <-. destruct (DS v n' q' A'). lia.
        -- rewrite updt_eq in A'. rewrite updt_ne in A by exact Nu. cbn in A'. injection A' as <- <-. destruct (DS u n q A). lia.
        -- rewrite updt_ne in A by exact Nu. rewrite updt_ne in A' by exact Nv. exact (DU u v n q n' q' NE A A').
      * intros u n q R. destruct (Nat.eq_dec u t) as [->|NE]; [rewrite updt_eq in R; discriminate|]. rewrite updt_ne in R by exact NE. exact (DP u n q R).
      * exact DB.
    + apply (dinv_move s _ t D F); cbn; auto; [intros; apply updt_ne; auto| | |]; rewrite ?updt_eq, ?T; cbn; auto.
      * intros q1 X. left. destruct (N.eq_dec q1 q) as [->|NE]; [rewrite upd_eq in X; discriminate|rewrite upd_ne in X by exact NE; exact X].
      * intros n1 q1 X. injection X as <- <-. rewrite upd_eq. discriminate.
    + assert (PN : pending s q <> None) by (apply (DP t n q); rewrite T; reflexivity).
      apply (dinv_move s _ t D F); destruct (k <? kMaxSendRetries)%nat; destruct (connected s); cbn; auto; try (intros; apply updt_ne; auto);
        rewrite ?updt_eq, ?T; try (destruct k; cbn); auto; intros n1 q1 X; injection X as <- <-; exact PN.
    + assert (PN : pending s q <> None) by (apply (DP t n q); rewrite T; reflexivity). cbn [fst].
      destruct (pending s q) as [b|] eqn:PQ; [|congruence].
      apply (dinv_move s _ t D F); cbn; auto; [intros; apply updt_ne; auto| | |]; rewrite ?updt_eq, ?T; cbn; auto.
      * intros q1 X. left. destruct (N.eq_dec q1 q) as [->|NE]; [rewrite upd_eq in X; discriminate|rewrite upd_ne in X by exact NE; exact X].
      * intros n1 q1 X. injection X as <- <-. rewrite upd_eq. discriminate.
    + assert (PN : pending s q <> None) by (apply (DP t n q); rewrite T; reflexivity).
      destruct ok; (apply (dinv_move s _ t D F); cbn; auto; [intros; apply updt_ne; auto| |]; rewrite ?updt_eq, ?T; cbn; auto; intros n1 q1 X; injection X as <- <-; exact PN).
    + assert (PN : pending s q <> None) by (apply (DP t n q); rewrite T; reflexivity). destruct (pending s q) as [b|] eqn:PQ; [|congruence].
      apply (dinv_move s _ t D F); cbn; auto; [intros; apply updt_ne; auto| |]; rewrite ?updt_eq, ?T; cbn; auto; intros n1 q1 X; injection X as <- <-; congruence.
    + assert (PN : pending s q <> None) by (apply (DP t n q); rewrite T; reflexivity). destruct (pending s q) as [[|]|] eqn:PQ; [| |congruence];
      (apply (dinv_move s _ t D F); cbn; auto; [intros; apply updt_ne; auto| |]; rewrite ?updt_eq, ?T; cbn; auto; intros n1 q1 X; injection X as <- <-; congruence).
    + assert (PN : pending s q <> None) by (apply (DP t n q); rewrite T; reflexivity).
      apply (dinv_move s _ t D F); destruct (connected s); cbn; auto; try (intros; apply updt_ne; auto);
        rewrite ?updt_eq, ?T; cbn; auto; intros n1 q1 X; injection X as <- <-; exact PN.
    + apply (dinv_move s _ t D F); cbn; auto; [intros; apply updt_ne; auto| | |]; rewrite ?updt_eq, ?T; cbn; try discriminate.
      intros q1 X. destruct (N.eq_dec q1 q) as [->|NE]; [right; exists n; auto|left; rewrite upd_ne in X by exact NE; exact X].
  - cbn [fst]. destruct (pending s q0) eqn:PQ; [|exact D]. constructor; cbn; auto. intros t n q R X. destruct (N.eq_dec q q0) as [->|NE]; [rewrite upd_eq in X; discriminate|].
    rewrite upd_ne in X by exact NE. exact (DP t n q R X).
  - cbn [fst]. constructor; cbn; auto.
Qed.

Lemma dinv_init : dinv init.
Proof. constructor; cbn; try discriminate; reflexivity. Qed.

Lemma dinv_runs l : always_fresh l -> dinv (fst (runs init l)) /\ fresh (fst (runs init l)).
Proof.
  induction l as [|a l IH] using rev_ind; intros A.
  - split; [exact dinv_init|apply (A [] []); reflexivity].
  - split; [|apply (A (l ++ [a]) []); rewrite app_nil_r; reflexivity].
    destruct IH as [D F]; [intros l1 l2 E; apply (A l1 (l2 ++ [a])); rewrite E, app_assoc; reflexivity|].
    rewrite runs_snoc. destruct (runs init l) as [s tr]. cbn [fst] in *. pose proof (dinv_step s a D F) as X. destruct (exec s a). exact X.
Qed.

(** Two requests in progress never share a sequence number, so neither takes the other's acknowledgement; and no
    thread's entry disappears while it waits. *)
Theorem C42_own_sequence_number : forall l t u n q n' q', always_fresh l -> t <> u ->
  active (at_ (fst (runs init l)) t) = Some (n, q) -> active (at_ (fst (runs init l)) u) = Some (n', q') -> q <> q'.
Proof. intros l t u n q n' q' A NE X Y. destruct (dinv_runs l A) as [D F]. exact (distinct _ t u n q n' q' D F NE X Y). Qed.
Theorem C42_entry_stays : forall l, always_fresh l -> ub (fst (runs init l)) = false.
Proof. intros l A. destruct (dinv_runs l A) as [[]]. assumption. Qed.

(** An acknowledgement for another sequence number changes nothing for a request; one for its own makes a thread
    that waits for it succeed, even if the connection is lost or the time is up at that moment. *)
Theorem C42_only_own_acknowledgement : forall s t n q k other, at_ s t = Wait n q k -> other <> q ->
  pending (fst (exec s (AckIn other))) q = pending s q /\ at_ (fst (exec s (AckIn other))) = at_ s.
Proof. intros s t n q k other _ NE. cbn. destruct (pending s other); cbn; [rewrite upd_ne by auto|]; auto. Qed.
Theorem C42_acknowledged_wins : forall s t n q k ok c, at_ s t = Wait n q k -> pending s q <> None ->
  at_ (fst (exec (fst (exec (fst (exec s (AckIn q))) (SetConnected c))) (Run t ok))) t = Erase n q Ok.
Proof.
  intros s t n q k ok c T P. cbn [exec fst]. destruct (pending s q) eqn:E; [|congruence]. cbn. rewrite T. rewrite upd_eq. cbn. apply updt_eq.
Qed.

Example C42_example :
  let l := [SetConnected true; Run 0 true; Run 0 true; Run 0 true; Run 1 true; Run 1 true; Run 1 true; Run 1 true; Run 0 true; Run 0 true; Run 1 true;
            Run 0 true; Run 1 true; AckIn 2; Run 0 true; Run 1 true; Run 1 true; Run 0 true; Run 0 true; Run 0 true; Run 0 true; Run 0 true; AckIn 1; AckIn 7; SetConnected false; Run 0 true; Run 0 true] in
  snd (runs init l) = [LBegin 0 0 1; LBegin 1 1 2; LSent 0 0 1; LSent 1 1 2; LAck 2; LReturn 1 1 2 Ok; LSent 0 0 1; LAck 1; LAck 7; LReturn 0 0 1 Ok].
Proof. reflexivity. Qed.

(** Runs of at most 2^32 steps are always fresh. *)
Lemma count_step s a : count (fst (exec s a)) <= count s + 1.
Proof. destruct a as [t ok|q|b]; cbn; [|destruct (pending s q); cbn; lia|lia]. destruct (at_ s t); cbn; repeat match goal with |- context [match ?x with _ => _ end] => destruct x; cbn end; lia. Qed.
Lemma count_runs l : count (fst (runs init l)) <= N.of_nat (length l).
Proof.
  induction l as [|a l IH] using rev_ind; [cbn; lia|]. rewrite runs_snoc, app_length. cbn [length]. destruct (runs init l) as [s tr]. cbn [fst] in IH.
  pose proof (count_step s a) as C. destruct (exec s a). cbn [fst] in *. lia.
Qed.
Example C42_fresh_example : forall l, N.of_nat (length l) <= 4294967296 -> always_fresh l.
Proof.
  intros l L l1 l2 E t n q _. pose proof (count_runs l1). rewrite E, app_length in L. lia.
Qed.

(** Without that restriction two requests can share a sequence number, even with only two in progress. *)
Definition cycle : list act := [Run 1 true; Run 1 true; Run 1 true; SetConnected false; Run 1 true; SetConnected true; Run 1 true].
Fixpoint cycles (k : nat) : list act := match k with O => [] | S k => cycles k ++ cycle end.

Lemma runs_app s l l' : fst (runs s (l ++ l')) = fst (runs (fst (runs s l)) l').
Proof.
  revert s. induction l as [|a l IH]; intros s; [reflexivity|]. cbn [app runs]. destruct (exec s a) as [s1 x]. specialize (IH s1).
  destruct (runs s1 (l ++ l')) as [s2 tr]. destruct (runs s1 l) as [s3 tr']. cbn [fst] in *. exact IH.
Qed.

Lemma cycle_effect s : at_ s 1%nat = Idle -> connected s = true ->
  let s' := fst (runs s cycle) in at_ s' 1%nat = Idle /\ (forall t, t <> 1%nat -> at_ s' t = at_ s t) /\ connected s' = true /\ count s' = count s + 1 /\ next s' = (next s + 1) mod two32.
Proof.
  intros T C. unfold cycle. cbn [runs].
  replace (exec s (Run 1 true)) with (go s 1 Fetch, @None label) by (cbn [exec]; rewrite T, C; reflexivity).
  cbn [runs exec fst snd go at_ updt Nat.eqb connected set_pending Nat.ltb Nat.leb kMaxSendRetries].
  split; [reflexivity|]. split; [|auto]. intros t N. rewrite !updt_ne by exact N. reflexivity.
Qed.

Definition start : list act := [SetConnected true; Run 0 true; Run 0 true; Run 0 true].
Lemma cycles_effect k : let s := fst (runs init (start ++ cycles k)) in
  at_ s 1%nat = Idle /\ at_ s 0%nat = Loop 0 1 0 SendFailure /\ (forall t, (1 < t)%nat -> at_ s t = Idle) /\ connected s = true /\ count s = 1 + N.of_nat k /\ next s = (2 + N.of_nat k) mod two32.
Proof.
  induction k as [|k IH].
  - cbn zeta. rewrite app_nil_r. split; [reflexivity|]. split; [reflexivity|]. split; [|cbn; auto]. intros [|[|t]] L; try lia; reflexivity.
  - cbn zeta in *. cbn [cycles]. rewrite app_assoc, runs_app. set (s := fst (runs init (start ++ cycles k))) in *. destruct IH as (A1 & A0 & AT & C & CN & NX).
    pose proof (cycle_effect s A1 C) as (B1 & B0 & B2 & B3 & B4). set (s' := fst (runs s cycle)) in *. clearbody s s'.
    split; [exact B1|]. split; [rewrite B0 by discriminate; exact A0|]. split; [intros t L; rewrite B0 by lia; apply AT; exact L|]. split; [exact B2|].
    split; [lia|]. rewrite B4, NX. unfold two32. rewrite N.add_mod_idemp_l by discriminate. f_equal. lia.
Qed.

Theorem C42_shared_number_refuted : exists l n n' q, active (at_ (fst (runs init l)) 0) = Some (n, q) /\ active (at_ (fst (runs init l)) 1) = Some (n', q) /\ n <> n' /\
  (forall t, (1 < t)%nat -> at_ (fst (runs init l)) t = Idle).
Proof.
  assert (K : exists k, N.of_nat k = two32 - 1) by (exists (N.to_nat (two32 - 1)); apply Nnat.N2Nat.id). destruct K as [k K].
  exists ((start ++ cycles k) ++ [Run 1 true; Run 1 true]), 0, two32, 1. rewrite runs_app. pose proof (cycles_effect k) as H. cbn zeta in H.
  set (s := fst (runs init (start ++ cycles k))) in *. destruct H as (A1 & A0 & AT & C & CN & NX). clearbody s. cbn [runs].
  replace (exec s (Run 1 true)) with (go s 1 Fetch, @None label) by (cbn [exec]; rewrite A1, C; reflexivity).
  cbn [runs exec fst snd go at_ updt Nat.eqb count next]. split; [rewrite A0; reflexivity|]. split; [|split; [discriminate|]].
  - cbn [active]. rewrite CN, NX, K. reflexivity.
  - intros t L. rewrite !updt_ne by lia. apply AT. exact L.
Qed.

(** * C63 *)

(** The request was handed to the receiver's dispatch queue, or the receive thread is just about to. *)
Definition received (y : sys) (n : N) : Prop := exists m, m_n m = n /\ (In m (queued y) \/ held y = Some m).
(** 2^32 is large compared to what is under way. *)
Definition sys_fresh (y : sys) : Prop := fresh (a_ y) /\ Forall (fun m => count (a_ y) <= m_n m + 4294967296) (chan y) /\ Forall (fun m => count (a_ y) <= m_n m + 4294967296) (acks y).
Definition sys_always_fresh (l : list sact) : Prop := forall l1 l2, l = l1 ++ l2 -> sys_fresh (fst (sys_runs sys_init l1)).

Lemma sys_runs_snoc y l a : sys_runs y (l ++ [a]) =
  let '(s1, tr) := sys_runs y l in let '(s2, x) := sys_exec s1 a in (s2, match x with Some e => tr ++ [e] | None => tr end).
Proof.
  revert y. induction l as [|b l IH]; intros y; cbn [app sys_runs].
  - destruct (sys_exec y a) as [s2 [e|]]; reflexivity.
  - destruct (sys_exec y b) as [s1 x]. rewrite IH. destruct (sys_runs s1 l) as [s2 tr]. destruct (sys_exec s2 a) as [s3 [z|]], x; reflexivity.
Qed.

Lemma sys_count l : count (a_ (fst (sys_runs sys_init l))) <= N.of_nat (length l).
Proof.
  induction l as [|a l IH] using rev_ind; [cbn; lia|]. rewrite sys_runs_snoc, app_length. cbn [length]. destruct (sys_runs sys_init l) as [y tr]. cbn [fst] in IH.
  assert (C : count (a_ (fst (sys_exec y a))) <= count (a_ y) + 1).
  { destruct a as [t ok|b|ok| | |i j]; cbn [sys_exec].
    - pose proof (count_step (a_ y) (Run t ok)) as C. destruct (exec (a_ y) (Run t ok)). exact C.
    - pose proof (count_step (a_ y) (SetConnected b)) as C. destruct (exec (a_ y) (SetConnected b)). exact C.
    - destruct (chan y); [cbn; lia|]. destruct (held y); [cbn; lia|]. destruct ok; cbn; lia.
    - destruct (held y); cbn; lia.
    - destruct (acks y) as [|m k]; [cbn; lia|]. pose proof (count_step (a_ y) (AckIn (m_s m))) as C. destruct (exec (a_ y) (AckIn (m_s m))). exact C.
    - cbn. lia. }
  destruct (sys_exec y a). cbn [fst] in *. lia.
Qed.
Lemma sys_fresh_short l : N.of_nat (length l) <= 4294967296 -> sys_always_fresh l.
Proof.
  intros L l1 l2 E. pose proof (sys_count l1). rewrite E, app_length in L. unfold sys_fresh. split; [intros t n q _; lia|].
  split; apply Forall_forall; intros; lia.
Qed.

Definition good_msg (y : sys) (m : msg) : Prop := m_s m = (m_n m + 1) mod two32 /\ m_n m < count (a_ y).
Record einv (y : sys) (tr : list label) : Prop := mkE {
  e_d : dinv (a_ y);
  e_chan : Forall (good_msg y) (chan y);
  e_acks : Forall (good_msg y) (acks y);
  e_acked : forall m, In m (acks y) -> received y (m_n m);
  e_pending : forall t n q, registered (at_ (a_ y) t) = Some (n, q) -> pending (a_ y) q = Some true -> received y n;
  e_erase : forall t n q, at_ (a_ y) t = Erase n q Ok -> received y n;
  e_returned : forall t n q, In (LReturn t n q Ok) tr -> received y n }.

Lemma received_mono y y' n : (forall m, In m (queued y) \/ held y = Some m -> In m (queued y') \/ held y' = Some m) -> received y n -> received y' n.
Proof. intros H (m & E & X). exists m. auto. Qed.

Lemma run_facts s t ok : let '(s', x) := exec s (Run t ok) in
  (forall q, pending s' q = Some true -> pending s q = Some true) /\
  (forall u, u <> t -> at_ s' u = at_ s u) /\ count s <= count s' /\
  (forall n q, registered (at_ s' t) = Some (n, q) -> pending s' q = Some true -> registered (at_ s t) = Some (n, q)) /\
  (forall n q, at_ s' t = Erase n q Ok -> at_ s t = Erase n q Ok \/ (registered (at_ s t) = Some (n, q) /\ pending s q = Some true)) /\
  (forall u n q, x = Some (LReturn u n q Ok) -> at_ s t = Erase n q Ok) /\
  (forall u n q, x = Some (LSent u n q) -> u = t /\ active (at_ s t) = Some (n, q) /\ active (at_ s' t) = Some (n, q)) /\
  (forall n q, active (at_ s' t) = Some (n, q) -> active (at_ s t) = Some (n, q) \/ n = count s) /\
  (active (at_ s' t) = None -> count s' = count s).
Proof.
  assert (UF : forall q q1, upd (pending s) q (Some false) q1 = Some true -> pending s q1 = Some true).
  { intros q q1 X. destruct (N.eq_dec q1 q) as [->|NE]; [rewrite upd_eq in X; discriminate|rewrite upd_ne in X by exact NE; exact X]. }
  assert (UN : forall q q1, upd (pending s) q None q1 = Some true -> pending s q1 = Some true).
  { intros q q1 X. destruct (N.eq_dec q1 q) as [->|NE]; [rewrite upd_eq in X; discriminate|rewrite upd_ne in X by exact NE; exact X]. }
  cbn [exec]. destruct (at_ s t) as [| |n q|n q k r|n q k|n q k|n q k|n q k|n q k r|n q r] eqn:T.
  - destruct (connected s); cbn; rewrite ?updt_eq, ?T; repeat (apply conj); intros; try apply updt_ne; try discriminate; auto; lia.
  - cbn; rewrite ?updt_eq, ?T; repeat (apply conj); intros; try apply updt_ne; try discriminate; auto; try lia. right. cbn in H. congruence.
  - cbn; rewrite ?updt_eq, ?T; repeat (apply conj); intros; try apply updt_ne; try discriminate; eauto; try lia. exfalso. cbn in H. injection H as <- <-. rewrite upd_eq in H0. discriminate.
  - destruct (k <? kMaxSendRetries)%nat; [destruct (connected s); [destruct (0 <? k)%nat|]|]; cbn; rewrite ?updt_eq, ?T; repeat (apply conj); intros; try apply updt_ne; try discriminate; auto; try lia.
  - destruct (pending s q) eqn:PQ; cbn; rewrite ?updt_eq, ?T; repeat (apply conj); intros; try apply updt_ne; try discriminate; eauto; try lia.
  - destruct ok; cbn; rewrite ?updt_eq, ?T; repeat (apply conj); intros; try apply updt_ne; try discriminate; auto; try lia; try congruence.
    all: injection H as -> -> ->; cbn; auto.
  - destruct (pending s q) eqn:PQ; cbn; rewrite ?updt_eq, ?T; repeat (apply conj); intros; try apply updt_ne; try discriminate; auto; try lia.
  - destruct (pending s q) as [[|]|] eqn:PQ; cbn; rewrite ?updt_eq, ?T; repeat (apply conj); intros; try apply updt_ne; try discriminate; auto; try lia.
    injection H as <- <-. auto.
  - destruct (connected s); cbn; rewrite ?updt_eq, ?T; repeat (apply conj); intros; try apply updt_ne; try discriminate; auto; try lia.
  - cbn; rewrite ?updt_eq, ?T; repeat (apply conj); intros; try apply updt_ne; try discriminate; eauto; try lia. injection H as <- <- <- ->. reflexivity.
Qed.

Lemma einv_step y tr a : einv y tr -> sys_fresh y -> let '(y', x) := sys_exec y a in einv y' (match x with Some e => tr ++ [e] | None => tr end).
Proof.
  intros I (F & FC & FA). pose proof I as [D EC EA EK EP EE ER]. destruct a as [t ok|b|ok| | |i j]; cbn [sys_exec].
  - pose proof (run_facts (a_ y) t ok) as R. pose proof (dinv_step (a_ y) (Run t ok) D F) as D'. destruct (exec (a_ y) (Run t ok)) as [s' x]. cbn [fst] in D'.
    destruct R as (R1 & R2 & R3 & R4 & R5 & R6 & R7 & _).
    assert (GM : forall l, Forall (good_msg y) l -> Forall (fun m => m_s m = (m_n m + 1) mod two32 /\ m_n m < count s') l).
    { intros l H. eapply Forall_impl; [|exact H]. intros m [A B]. split; [exact A|lia]. }
    assert (RC : forall c n, received y n -> received (mkSys s' c (acks y) (held y) (queued y)) n) by (intros c n; apply received_mono; auto).
    constructor; cbn [a_ chan acks held queued].
    + exact D'.
    + destruct x as [[u n q|u n q|q|u n q r]|]; try (apply GM; exact EC). apply Forall_app. split; [apply GM; exact EC|]. constructor; [|constructor].
      destruct (R7 u n q eq_refl) as (-> & A & A'). destruct D' as [_ DS _ _ _]. destruct (DS t n q A'). split; assumption.
    + apply GM. exact EA.
    + intros m M. apply RC. apply EK. exact M.
    + intros u n q U P. apply RC. destruct (Nat.eq_dec u t) as [->|NE].
      * apply (EP t n q); [apply R4; assumption|apply R1; exact P].
      * rewrite R2 in U by exact NE. apply (EP u n q U). apply R1. exact P.
    + intros u n q U. apply RC. destruct (Nat.eq_dec u t) as [->|NE].
      * destruct (R5 n q U) as [A|[A B]]; [exact (EE t n q A)|exact (EP t n q A B)].
      * rewrite R2 in U by exact NE. exact (EE u n q U).
    + intros u n q U. apply RC. destruct x as [e|]; [|exact (ER u n q U)]. apply in_app_or in U. destruct U as [U|[->|[]]]; [exact (ER u n q U)|].
      exact (EE t n q (R6 u n q eq_refl)).
  - cbn [exec]. constructor; cbn [a_ chan acks held queued]; auto. exact (dinv_step (a_ y) (SetConnected b) D F).
  - destruct (chan y) as [|m c] eqn:C; [exact I|]. destruct (held y) as [h|] eqn:H; [exact I|]. inversion EC as [|? ? G GC]; subst. destruct ok.
    + assert (RC : forall n, received y n -> received (mkSys (a_ y) c (acks y ++ [m]) (Some m) (queued y)) n) by (intros n; apply received_mono; cbn; intros m1 [X|X]; [auto|congruence]).
      constructor; cbn [a_ chan acks held queued]; auto.
      * apply Forall_app. split; [exact EA|]. constructor; [exact G|constructor].
      * intros m1 M. apply in_app_or in M. destruct M as [M|[<-|[]]]; [apply RC; auto|]. exists m. cbn. auto.
      * intros u n q U P. apply RC. exact (EP u n q U P).
      * intros u n q U. apply RC. exact (EE u n q U).
      * intros u n q U. apply RC. exact (ER u n q U).
    + assert (RC : forall n, received y n -> received (mkSys (a_ y) c (acks y) None (queued y)) n) by (intros n; apply received_mono; cbn; intros m1 [X|X]; [auto|congruence]).
      constructor; cbn [a_ chan acks held queued]; auto; intros; apply RC; eauto.
  - destruct (held y) as [m|] eqn:H; [|exact I].
    assert (RC : forall n, received y n -> received (mkSys (a_ y) (chan y) (acks y) None (queued y ++ [m])) n).
    { intros n. apply received_mono. cbn. intros m1 [X|X]; left; apply in_or_app; [left; exact X|right]. rewrite H in X. injection X as ->. left. reflexivity. }
    constructor; cbn [a_ chan acks held queued]; auto; intros; apply RC; eauto.
  - destruct (acks y) as [|m k] eqn:A; [exact I|]. pose proof (dinv_step (a_ y) (AckIn (m_s m)) D F) as D'. cbn [exec] in *. cbn [fst] in D'. inversion EA as [|? ? G GA]; subst. inversion FA as [|? ? FM FK]; subst.
    assert (RC : forall s n, received y n -> received (mkSys s (chan y) k (held y) (queued y)) n) by (intros s n; apply received_mono; auto).
    assert (RM : received y (m_n m)) by (apply EK; rewrite ?A; left; reflexivity).
    constructor; cbn [a_ chan acks held queued].
    + exact D'.
    + eapply Forall_impl; [|exact EC]. intros m1 [X Y]. split; [exact X|]. cbn. destruct (pending (a_ y) (m_s m)); exact Y.
    + eapply Forall_impl; [|exact GA]. intros m1 [X Y]. split; [exact X|]. cbn. destruct (pending (a_ y) (m_s m)); exact Y.
    + intros m1 M. apply RC. apply EK. rewrite ?A. right. exact M.
    + intros u n q U P. apply RC. destruct (pending (a_ y) (m_s m)) eqn:PM; [|exact (EP u n q U P)]. cbn in U, P.
      destruct (N.eq_dec q (m_s m)) as [->|NE]; [|rewrite upd_ne in P by exact NE; exact (EP u n q U P)].
      apply registered_active in U. destruct D as [_ DS _ _ _]. destruct (DS u n _ U) as [S L]. pose proof (F u n _ U). destruct G as [GS GL].
      assert (n = m_n m) by (apply same_mod; [rewrite <- GS; symmetry; exact S|unfold two32; lia|unfold two32; lia]). subst n. exact RM.
    + intros u n q U. apply RC. destruct (pending (a_ y) (m_s m)); cbn in U; exact (EE u n q U).
    + intros u n q U. apply RC. apply in_app_or in U. destruct U as [U|[U|[]]]; [exact (ER u n q U)|discriminate].
  - assert (RC : forall c k n, received y n -> received (mkSys (a_ y) c k (held y) (queued y)) n) by (intros c k n; apply received_mono; auto).
    assert (FF : forall (P : msg -> Prop) i l, Forall P l -> Forall P (firstn i l)).
    { intros P i0 l. revert i0. induction l; intros [|i0] Q; cbn; auto. inversion_clear Q. constructor; auto. }
    constructor; cbn [a_ chan acks held queued].
    + exact D.
    + apply FF. exact EC.
    + apply FF. exact EA.
    + intros m M. apply RC. apply EK. rewrite <- (firstn_skipn j (acks y)). apply in_or_app. left. exact M.
    + intros u n q U P. apply RC. exact (EP u n q U P).
    + intros u n q U. apply RC. exact (EE u n q U).
    + intros u n q U. apply RC. exact (ER u n q U).
Qed.

Lemma einv_runs l : forall y tr, sys_runs sys_init l = (y, tr) -> sys_always_fresh l -> einv y tr.
Proof.
  induction l as [|a l IH] using rev_ind; intros y tr H A.
  - injection H as <- <-. constructor; cbn; try discriminate; auto; [exact dinv_init| |]; intros; contradiction.
  - assert (A' : sys_always_fresh l) by (intros l1 l2 E; apply (A l1 (l2 ++ [a])); rewrite E, app_assoc; reflexivity).
    assert (FY : sys_fresh (fst (sys_runs sys_init l))) by (apply (A l [a]); reflexivity).
    rewrite sys_runs_snoc in H. destruct (sys_runs sys_init l) as [y1 tr1]. pose proof (einv_step y1 tr1 a (IH _ _ eq_refl A') FY) as S.
    destruct (sys_exec y1 a) as [y2 x]. injection H as <- <-. exact S.
Qed.

(** When SendRequest reports success the other side has the request: it is in its dispatch queue, or was, or its
    receive thread is about to put it there. *)
Theorem C63_acknowledged_is_received : forall l y tr t n q, sys_runs sys_init l = (y, tr) -> sys_always_fresh l ->
  In (LReturn t n q Ok) tr -> received y n.
Proof. intros l y tr t n q H A I. destruct (einv_runs l y tr H A) as [_ _ _ _ _ _ R]. exact (R t n q I). Qed.

(** order *)
Definition le_if_same (a b : msg) : Prop := m_t a = m_t b -> m_n a <= m_n b.
Definition under_way (y : sys) : list msg := queued y ++ (match held y with Some m => [m] | None => [] end) ++ chan y.
Record oinv (y : sys) : Prop := mkO {
  o_sorted : ForallOrdPairs le_if_same (under_way y);
  o_active : forall t n q, active (at_ (a_ y) t) = Some (n, q) -> Forall (fun m => m_t m = t -> m_n m <= n) (under_way y);
  o_all : Forall (fun m => m_n m < count (a_ y)) (under_way y) }.

Lemma fop_snoc l x : ForallOrdPairs le_if_same l -> Forall (fun a => le_if_same a x) l -> ForallOrdPairs le_if_same (l ++ [x]).
Proof.
  induction 1 as [|a l A _ IH]; intros F; cbn; [repeat constructor|]. inversion_clear F. constructor; [|apply IH; assumption]. apply Forall_app. split; [exact A|]. constructor; [assumption|constructor].
Qed.
Lemma fop_drop l1 x l2 : ForallOrdPairs le_if_same (l1 ++ x :: l2) -> ForallOrdPairs le_if_same (l1 ++ l2).
Proof.
  induction l1 as [|a l1 IH]; cbn; intros H; inversion_clear H; [assumption|]. constructor; [|apply IH; assumption].
  rewrite Forall_app in *. destruct H0 as [A B]. split; [exact A|]. inversion_clear B. assumption.
Qed.
Lemma fop_prefix l1 l2 : ForallOrdPairs le_if_same (l1 ++ l2) -> ForallOrdPairs le_if_same l1.
Proof. induction l1 as [|a l1 IH]; cbn; intros H; [constructor|]. inversion_clear H. constructor; [|apply IH; assumption]. rewrite Forall_app in *. tauto. Qed.

Lemma oinv_step y tr a : einv y tr -> oinv y -> oinv (fst (sys_exec y a)).
Proof.
  intros EI [S O L]. destruct a as [t ok|b|ok| | |i j]; cbn [sys_exec].
  - pose proof (run_facts (a_ y) t ok) as R. destruct (exec (a_ y) (Run t ok)) as [s' x]. destruct R as (_ & R2 & R3 & _ & _ & _ & R7 & R8 & _). cbn [fst].
    assert (KEEP : forall c, c = under_way y -> (forall u n q, active (at_ s' u) = Some (n, q) -> Forall (fun m => m_t m = u -> m_n m <= n) c)).
    { intros c -> u n q A. destruct (Nat.eq_dec u t) as [->|NE]; [|rewrite R2 in A by exact NE; exact (O u n q A)].
      destruct (R8 n q A) as [A'|E]; [exact (O t n q A')|]. subst n. eapply Forall_impl; [|exact L]. cbn. intros m M _. lia. }
    assert (UW : under_way (mkSys s' (chan y) (acks y) (held y) (queued y)) = under_way y) by reflexivity.
    assert (QUIET : oinv (mkSys s' (chan y) (acks y) (held y) (queued y))).
    { constructor; cbn [a_]; rewrite UW; [exact S|apply KEEP; reflexivity|]. eapply Forall_impl; [|exact L]. cbn. intros; lia. }
    destruct x as [[u n q|u n q|q|u n q r]|]; try exact QUIET. destruct (R7 u n q eq_refl) as (-> & A & A').
    assert (UW' : under_way (mkSys s' (chan y ++ [mkMsg t n q]) (acks y) (held y) (queued y)) = under_way y ++ [mkMsg t n q]) by (unfold under_way; cbn; rewrite !app_assoc; reflexivity).
    destruct EI as [[_ DS DU _ _] _ _ _ _ _ _]. destruct (DS t n q A) as [_ LN].
    constructor; cbn [a_]; rewrite UW'.
    + apply fop_snoc; [exact S|]. pose proof (O t n q A) as OT. eapply Forall_impl; [|exact OT]. cbn. intros m M E. cbn in E |- *. apply M. exact E.
    + intros u n1 q1 U. apply Forall_app. split; [apply (KEEP _ eq_refl u n1 q1 U)|]. constructor; [|constructor]. cbn. intros <-. rewrite A' in U. injection U as <- <-. lia.
    + apply Forall_app. split; [eapply Forall_impl; [|exact L]; cbn; intros; lia|]. constructor; [cbn; lia|constructor].
  - constructor; cbn [fst exec a_]; auto.
  - destruct (chan y) as [|m c] eqn:C; [constructor; auto|]. destruct (held y) as [h|] eqn:H; [constructor; auto|]. destruct ok; cbn [fst].
    + assert (UW : under_way (mkSys (a_ y) c (acks y ++ [m]) (Some m) (queued y)) = under_way y) by (unfold under_way; cbn; rewrite C, H; reflexivity).
      constructor; cbn [a_]; rewrite UW; auto.
    + assert (E : under_way y = queued y ++ m :: c) by (unfold under_way; rewrite C, H; reflexivity). rewrite E in *.
      assert (UW : under_way (mkSys (a_ y) c (acks y) None (queued y)) = queued y ++ c) by reflexivity.
      assert (FD : forall (P : msg -> Prop), Forall P (queued y ++ m :: c) -> Forall P (queued y ++ c)) by (intros P Q; rewrite Forall_app in *; destruct Q as [Q1 Q2]; inversion_clear Q2; auto).
      constructor; cbn [a_]; rewrite UW; [apply fop_drop with m; exact S|intros u n q A; apply FD; exact (O u n q A)|apply FD; exact L].
  - destruct (held y) as [m|] eqn:H; [|constructor; auto]. cbn [fst].
    assert (UW : under_way (mkSys (a_ y) (chan y) (acks y) None (queued y ++ [m])) = under_way y) by (unfold under_way; cbn; rewrite H, <- app_assoc; reflexivity).
    constructor; cbn [a_]; rewrite UW; auto.
  - destruct (acks y) as [|m k]; [constructor; auto|]. cbn [exec fst].
    destruct (pending (a_ y) (m_s m)); constructor; cbn; auto.
  - cbn [fst]. set (h := queued y ++ (match held y with Some m => [m] | None => [] end)) in *.
    assert (E : under_way y = (h ++ firstn i (chan y)) ++ skipn i (chan y)) by (unfold under_way, h; rewrite <- !app_assoc, firstn_skipn; reflexivity).
    assert (UW : under_way (mkSys (a_ y) (firstn i (chan y)) (firstn j (acks y)) (held y) (queued y)) = h ++ firstn i (chan y)) by (unfold under_way, h; cbn; rewrite <- !app_assoc; reflexivity).
    assert (FD : forall (P : msg -> Prop), Forall P (under_way y) -> Forall P (h ++ firstn i (chan y))) by (intros P Q; rewrite E, Forall_app in Q; tauto).
    constructor; cbn [a_]; rewrite UW; [rewrite E in S; exact (fop_prefix _ _ S)|intros u n q A; apply FD; exact (O u n q A)|apply FD; exact L].
Qed.

Lemma oinv_runs l : sys_always_fresh l -> oinv (fst (sys_runs sys_init l)).
Proof.
  induction l as [|a l IH] using rev_ind; intros A.
  - constructor; cbn; try constructor.
  - assert (A' : sys_always_fresh l) by (intros l1 l2 E; apply (A l1 (l2 ++ [a])); rewrite E, app_assoc; reflexivity). specialize (IH A').
    rewrite sys_runs_snoc. destruct (sys_runs sys_init l) as [y1 tr1] eqn:E. pose proof (oinv_step y1 tr1 a (einv_runs l y1 tr1 E A') IH) as S. destruct (sys_exec y1 a). exact S.
Qed.

(** The requests of one thread reach the dispatch queue in the order in which the thread made them. *)
Theorem C63_in_order : forall l before a between b after, sys_always_fresh l ->
  queued (fst (sys_runs sys_init l)) = before ++ a :: between ++ b :: after -> m_t a = m_t b -> m_n a <= m_n b.
Proof.
  intros l before a between b after A E. destruct (oinv_runs l A) as [S _ _]. unfold under_way in S. rewrite E in S. apply fop_prefix in S.
  revert S. clear. induction before as [|x before IH]; cbn; intros H; inversion_clear H; [|auto]. intros T. rewrite Forall_app in H0. destruct H0 as [_ B]. inversion_clear B. apply H. exact T.
Qed.

(** But not once: if the acknowledgement takes longer than the timeout the request is executed again. *)
Theorem C63_once_refuted : exists l m, sys_always_fresh l /\ queued (fst (sys_runs sys_init l)) = [m; m] /\
  snd (sys_runs sys_init l) = [LBegin 0 0 1; LSent 0 0 1; LSent 0 0 1; LAck 1; LReturn 0 0 1 Ok].
Proof.
  exists [SConnected true; SA 0 true; SA 0 true; SA 0 true; SA 0 true; SA 0 true; SReceive true; SQueue; SA 0 true; SA 0 true; SA 0 true; SA 0 true; SA 0 true; SA 0 true; SReceive true; SQueue; SAckIn; SA 0 true; SA 0 true; SA 0 true], (mkMsg 0 0 1).
  split; [|split; reflexivity]. apply sys_fresh_short. vm_compute. discriminate.
Qed.

Example C63_example : exists l, sys_always_fresh l /\ map m_n (queued (fst (sys_runs sys_init l))) = [0; 1] /\
  In (LReturn 0 0 1 Ok) (snd (sys_runs sys_init l)).
Proof.
  exists [SConnected true; SA 0 true; SA 0 true; SA 0 true; SA 0 true; SA 0 true; SA 1 true; SA 1 true; SA 1 true; SA 1 true; SA 1 true; SReceive true; SAckIn; SQueue; SReceive true; SQueue; SA 0 true; SA 0 true; SA 0 true; SLost 0 0].
  split; [apply sys_fresh_short; vm_compute; discriminate|]. split; [reflexivity|]. vm_compute. auto 10.
Qed.

Print Assumptions C42_success_means_acknowledged.
Print Assumptions C42_own_sequence_number.
Print Assumptions C42_entry_stays.
Print Assumptions C42_only_own_acknowledgement.
Print Assumptions C42_acknowledged_wins.
Print Assumptions C42_shared_number_refuted.
Print Assumptions C63_acknowledged_is_received.
Print Assumptions C63_in_order.
Print Assumptions C63_once_refuted.
