(** C63: how often a request is put on the connection, and what a failure means. *)
From Verif Require Import Base GwReqModel GwReqProps.
Local Open Scope N_scope.

(** How often request [n] was put on the connection. *)
Fixpoint sends (n : N) (tr : list label) : nat :=
  match tr with
  | [] => 0
  | LSent _ m _ :: r => if m =? n then S (sends n r) else sends n r
  | _ :: r => sends n r
  end.

Lemma sends_app n a b : sends n (a ++ b) = (sends n a + sends n b)%nat.
Proof. induction a as [|x a IH]; [reflexivity|]. destruct x; cbn; auto. destruct (_ =? _); cbn; rewrite IH; reflexivity. Qed.

(** the attempts a thread has used up at most *)
Definition used (p : pc) : nat :=
  match p with
  | Idle | Fetch | Register _ _ => 0
  | Loop _ _ k _ | Reset _ _ k | Send _ _ k => k
  | Find _ _ k | Wait _ _ k | Check _ _ k _ => S k
  | Erase _ _ _ => 5
  end.

Definition in_limit (p : pc) : Prop :=
  match p with
  | Loop _ _ k _ => (k <= 5)%nat
  | Reset _ _ k | Send _ _ k | Find _ _ k | Wait _ _ k | Check _ _ k _ => (k < 5)%nat
  | _ => True
  end.

Record rinv (s : st) (tr : list label) : Prop := mkR {
  r_new : forall n, count s <= n -> sends n tr = 0%nat;
  r_act : forall t n q, active (at_ s t) = Some (n, q) -> n < count s /\ (sends n tr <= used (at_ s t))%nat;
  r_lim : forall t, in_limit (at_ s t);
  r_uniq : forall t u n q n' q', t <> u -> active (at_ s t) = Some (n, q) -> active (at_ s u) = Some (n', q') -> n <> n';
  r_all : forall n, (sends n tr <= 5)%nat }.

(** one thread goes on within its request, sending nothing *)
Lemma rinv_move s s' tr t x : rinv s tr -> count s' = count s -> (forall u, u <> t -> at_ s' u = at_ s u) ->
  (forall n q, active (at_ s' t) = Some (n, q) -> active (at_ s t) = Some (n, q) /\ (used (at_ s t) <= used (at_ s' t))%nat) ->
  in_limit (at_ s' t) -> (forall n, sends n x = 0%nat) -> rinv s' (tr ++ x).
Proof.
  intros [A B C D E] K U T L X.
  assert (Y : forall n, sends n (tr ++ x) = sends n tr) by (intros n; rewrite sends_app, X, Nat.add_0_r; reflexivity).
  constructor.
  - intros n H. rewrite Y, K in *. exact (A n H).
  - intros u n q H. rewrite Y, K. destruct (Nat.eq_dec u t) as [->|N].
    + destruct (T n q H) as [H1 H2]. destruct (B t n q H1). split; [assumption|lia].
    + rewrite U in * by exact N. exact (B u n q H).
  - intros u. destruct (Nat.eq_dec u t) as [->|N]; [exact L|rewrite U by exact N; apply C].
  - intros u v n q n' q' N H1 H2.
    assert (G1 : active (at_ s u) = Some (n, q)) by (destruct (Nat.eq_dec u t) as [->|M]; [exact (proj1 (T n q H1))|rewrite U in H1 by exact M; exact H1]).
    assert (G2 : active (at_ s v) = Some (n', q')) by (destruct (Nat.eq_dec v t) as [->|M]; [exact (proj1 (T n' q' H2))|rewrite U in H2 by exact M; exact H2]).
    exact (D u v n q n' q' N G1 G2).
  - intros n. rewrite Y. apply E.
Qed.

Lemma rinv_env s s' tr x : rinv s tr -> count s' = count s -> at_ s' = at_ s -> (forall n, sends n x = 0%nat) -> rinv s' (tr ++ x).
Proof.
  intros I K U X. refine (rinv_move s s' tr 0 x I K _ _ _ X); [intros; rewrite U; reflexivity|rewrite U; auto|rewrite U; apply (r_lim _ _ I)].
Qed.

Lemma rinv_step s tr a : rinv s tr -> let '(s', x) := exec s a in rinv s' (tr ++ match x with Some e => [e] | None => [] end).
Proof.
  intros I. destruct a as [t ok|q0|b].
  - pose proof (r_lim _ _ I t) as L. cbn [exec]. destruct (at_ s t) as [| |n q|n q k r|n q k|n q k|n q k|n q k|n q k r|n q r] eqn:T; cbn [in_limit] in L.
    + destruct (connected s); [|apply (rinv_env s s tr []); auto]. apply (rinv_move s _ tr t []); auto; cbn; [intros; apply updt_ne; auto|rewrite updt_eq; discriminate|rewrite updt_eq; exact Logic.I].
    + destruct I as [A B C D E]. constructor; cbn [count at_].
      * intros n H. rewrite app_nil_r. apply A. lia.
      * intros u n q H. rewrite app_nil_r. destruct (Nat.eq_dec u t) as [->|N].
        -- rewrite updt_eq in *. injection H as <- <-. split; [lia|]. rewrite A by lia. cbn. lia.
        -- rewrite updt_ne in * by exact N. destruct (B u n q H). split; [lia|assumption].
      * intros u. destruct (Nat.eq_dec u t) as [->|N]; [rewrite updt_eq; exact Logic.I|rewrite updt_ne by exact N; apply C].
      * intros u v n q n' q' N H1 H2. destruct (Nat.eq_dec u t) as [->|M1]; destruct (Nat.eq_dec v t) as [->|M2]; [congruence| | |].
        -- rewrite updt_eq in H1. rewrite updt_ne in H2 by exact M2. injection H1 as <- <-. destruct (B v n' q' H2). lia.
        -- rewrite updt_eq in H2. rewrite updt_ne in H1 by exact M1. injection H2 as <- <-. destruct (B u n q H1). lia.
        -- rewrite updt_ne in * by assumption. exact (D u v n q n' q' N H1 H2).
      * intros n. rewrite app_nil_r. apply E.
    + apply (rinv_move s _ tr t [LBegin t n q]); auto; cbn; [intros; apply updt_ne; auto|rewrite updt_eq, T; cbn; intros n1 q1 X; split; [exact X|lia]|rewrite updt_eq; cbn; lia].
    + change kMaxSendRetries with 5%nat. destruct (Nat.ltb_spec k 5) as [K|K].
      * destruct (connected s).
        -- apply (rinv_move s _ tr t []); auto; [cbn; intros; apply updt_ne; auto|cbn; rewrite updt_eq, T; destruct k; cbn; intros n1 q1 X; (split; [exact X|lia])|].
           cbn. rewrite updt_eq. destruct k; cbn; lia.
        -- apply (rinv_move s _ tr t []); auto; cbn; [intros; apply updt_ne; auto|rewrite updt_eq, T; cbn; intros n1 q1 X; split; [exact X|lia]|rewrite updt_eq; exact Logic.I].
      * apply (rinv_move s _ tr t []); auto; cbn; [intros; apply updt_ne; auto|rewrite updt_eq, T; cbn; intros n1 q1 X; split; [exact X|lia]|rewrite updt_eq; exact Logic.I].
    + apply (rinv_move s _ tr t []); auto; [destruct (pending s q); reflexivity|intros; destruct (pending s q); cbn; apply updt_ne; auto| |].
      * destruct (pending s q); cbn; rewrite updt_eq, T; cbn; intros n1 q1 X; (split; [exact X|lia]).
      * destruct (pending s q); cbn; rewrite updt_eq; cbn; exact L.
    + destruct ok.
      2:{ apply (rinv_move s _ tr t []); auto; cbn; [intros; apply updt_ne; auto|rewrite updt_eq, T; cbn; intros n1 q1 X; split; [exact X|lia]|rewrite updt_eq; exact L]. }
      pose proof I as [A B C D E].
      assert (HB : n < count s /\ (sends n tr <= k)%nat) by (specialize (B t n q); rewrite T in B; exact (B eq_refl)).
      assert (Z : forall m, sends m (tr ++ [LSent t n q]) = (sends m tr + if (n =? m)%N then 1 else 0)%nat).
      { intros m. rewrite sends_app. cbn. destruct (n =? m)%N; reflexivity. }
      constructor; cbn [count at_ go].
      * intros m H. rewrite Z, (A m H). destruct (N.eqb_spec n m); [lia|reflexivity].
      * intros u m q1 H. rewrite Z. destruct (Nat.eq_dec u t) as [->|N].
        -- rewrite updt_eq in *. cbn in H. injection H as <- <-. rewrite N.eqb_refl. cbn [used]. split; [tauto|lia].
        -- rewrite updt_ne in * by exact N. destruct (B u m q1 H) as [B1 B2]. split; [exact B1|]. destruct (N.eqb_spec n m) as [->|]; [|lia].
           exfalso. apply (D u t m q1 m q N H); [rewrite T|]; reflexivity.
      * intros u. destruct (Nat.eq_dec u t) as [->|N]; [rewrite updt_eq; exact L|rewrite updt_ne by exact N; apply C].
      * intros u v m q1 m' q' N H1 H2.
        assert (G1 : active (at_ s u) = Some (m, q1)) by (destruct (Nat.eq_dec u t) as [->|M]; [rewrite updt_eq in H1; rewrite T; exact H1|rewrite updt_ne in H1 by exact M; exact H1]).
        assert (G2 : active (at_ s v) = Some (m', q')) by (destruct (Nat.eq_dec v t) as [->|M]; [rewrite updt_eq in H2; rewrite T; exact H2|rewrite updt_ne in H2 by exact M; exact H2]).
        exact (D u v m q1 m' q' N G1 G2).
      * intros m. rewrite Z. destruct (N.eqb_spec n m) as [<-|]; [lia|]. specialize (E m). lia.
    + apply (rinv_move s _ tr t []); auto; [destruct (pending s q); reflexivity|intros; destruct (pending s q); cbn; apply updt_ne; auto| |].
      * destruct (pending s q); cbn; rewrite updt_eq, T; cbn; intros n1 q1 X; (split; [exact X|lia]).
      * destruct (pending s q); cbn; rewrite updt_eq; cbn; exact L.
    + destruct (pending s q) as [[|]|]; [| |apply (rinv_env s _ tr []); auto];
      (apply (rinv_move s _ tr t []); auto; cbn; [intros; apply updt_ne; auto|rewrite updt_eq, T; cbn; intros n1 q1 X; split; [exact X|lia]|rewrite updt_eq; cbn; auto]).
    + destruct (connected s); (apply (rinv_move s _ tr t []); auto; cbn; [intros; apply updt_ne; auto|rewrite updt_eq, T; cbn; intros n1 q1 X; split; [exact X|lia]|rewrite updt_eq; cbn; auto; lia]).
    + apply (rinv_move s _ tr t [LReturn t n q r]); auto; cbn; [intros; apply updt_ne; auto|rewrite updt_eq; discriminate|rewrite updt_eq; exact Logic.I].
  - cbn [exec]. apply (rinv_env s _ tr [LAck q0]); auto; destruct (pending s q0); reflexivity.
  - cbn [exec]. apply (rinv_env s _ tr []); auto.
Qed.

Lemma rinv_runs l : rinv (fst (runs init l)) (snd (runs init l)).
Proof.
  induction l as [|a l IH] using rev_ind.
  - constructor; cbn; try discriminate; auto; lia.
  - rewrite runs_snoc. destruct (runs init l) as [s1 tr1]. pose proof (rinv_step s1 tr1 a IH) as S.
    destruct (exec s1 a) as [s2 [e|]]; cbn [fst snd]; [exact S|rewrite app_nil_r in S; exact S].
Qed.

(** Whatever the connection and the other side do, a request is put on the connection at most five times; hence it is
    executed at most five times, too. *)
Theorem C63_sent_at_most_five_times : forall l n, (sends n (snd (runs init l)) <= 5)%nat.
Proof. intros l n. apply (r_all _ _ (rinv_runs l)). Qed.

(** Five is reached: an unanswered request is sent five times. *)
Definition unanswered : list act :=
  SetConnected true :: repeat (Run 0 true) 3 ++ repeat (Run 0 true) 5 ++ concat (repeat (repeat (Run 0 true) 6) 4) ++ repeat (Run 0 true) 2.
Example C63_five_sends_example : sends 0 (snd (runs init unanswered)) = 5%nat /\
  In (LReturn 0 0 1 (Err Timeout)) (snd (runs init unanswered)).
Proof. vm_compute. intuition. Qed.

(** * What a failure means *)

(** The connection is never reported lost. *)
Definition stays_connected (l : list act) : Prop := exists r, l = SetConnected true :: r /\ ~ In (SetConnected false) r.

Definition not_nc (p : pc) : Prop :=
  match p with Loop _ _ _ r | Check _ _ _ r | Erase _ _ (Err r) => r <> NotConnected | _ => True end.

Record cinv (s : st) (tr : list label) : Prop := mkCi {
  c_on : connected s = true;
  c_pc : forall t, not_nc (at_ s t);
  c_tr : forall t n q, ~ In (LReturn t n q (Err NotConnected)) tr }.

Lemma cinv_step s tr a : a <> SetConnected false -> cinv s tr ->
  let '(s', x) := exec s a in cinv s' (tr ++ match x with Some e => [e] | None => [] end).
Proof.
  intros NF [A B C].
  assert (M : forall t p s' x, connected s' = connected s -> at_ s' = updt (at_ s) t p -> not_nc p ->
     (forall t n q, ~ In (LReturn t n q (Err NotConnected)) x) -> cinv s' (tr ++ x)).
  { intros t p s' x E1 E2 E3 E4. constructor; [congruence| |].
    - intros u. rewrite E2. unfold updt. destruct (Nat.eqb u t); [exact E3|apply B].
    - intros u n q H. apply in_app_or in H. destruct H as [H|H]; [exact (C _ _ _ H)|exact (E4 _ _ _ H)]. }
  assert (Q : forall s' x, connected s' = connected s -> at_ s' = at_ s -> (forall t n q, ~ In (LReturn t n q (Err NotConnected)) x) -> cinv s' (tr ++ x)).
  { intros s' x E1 E2 E4. constructor; [congruence|intros u; rewrite E2; apply B|].
    intros u n q H. apply in_app_or in H. destruct H as [H|H]; [exact (C _ _ _ H)|exact (E4 _ _ _ H)]. }
  destruct a as [t ok|q0|b].
  - pose proof (B t) as L. cbn [exec]. destruct (at_ s t) as [| |n q|n q k r|n q k|n q k|n q k|n q k|n q k r|n q r] eqn:T; cbn [not_nc] in L; rewrite ?A.
    + eapply M; [reflexivity|reflexivity|exact Logic.I|intros ? ? ? []].
    + eapply M; [symmetry; exact A|reflexivity|exact Logic.I|intros ? ? ? []].
    + eapply M; [reflexivity|reflexivity|discriminate|]. intros ? ? ? [X|[]]. discriminate.
    + destruct (k <? kMaxSendRetries)%nat; (eapply M; [reflexivity|reflexivity| |intros ? ? ? []]); [destruct k; exact Logic.I|exact L].
    + eapply (M t (Send n q k)); [destruct (pending s q); reflexivity|destruct (pending s q); reflexivity|exact Logic.I|intros ? ? ? []].
    + destruct ok; (eapply M; [reflexivity|reflexivity| |]); [exact Logic.I|intros ? ? ? [X|[]]; discriminate|discriminate|intros ? ? ? []].
    + destruct (pending s q); (eapply M; [reflexivity|reflexivity| |intros ? ? ? []]); [exact Logic.I|discriminate].
    + destruct (pending s q) as [[|]|]; [eapply M; [reflexivity|reflexivity|exact Logic.I|intros ? ? ? []]|
        eapply M; [reflexivity|reflexivity|discriminate|intros ? ? ? []]|apply Q; [cbn; congruence|reflexivity|intros ? ? ? []]].
    + eapply M; [reflexivity|reflexivity|exact L|intros ? ? ? []].
    + eapply M; [reflexivity|reflexivity|exact Logic.I|]. intros u m p [X|[]]. injection X as <- <- <- ->. exact (L eq_refl).
  - cbn [exec]. apply Q; [destruct (pending s q0); reflexivity|destruct (pending s q0); reflexivity|]. intros ? ? ? [X|[]]. discriminate.
  - destruct b; [|congruence]. cbn [exec]. apply Q; [cbn; congruence|reflexivity|intros ? ? ? []].
Qed.

(** While the connection is never reported lost, no request fails as "not connected". *)
Theorem C63_not_connected_only_if_lost : forall l t n q, stays_connected l ->
  ~ In (LReturn t n q (Err NotConnected)) (snd (runs init l)).
Proof.
  intros l t n q (r & -> & N).
  assert (X : cinv (fst (runs init (SetConnected true :: r))) (snd (runs init (SetConnected true :: r)))).
  { induction r as [|a r IH] using rev_ind.
    - constructor; cbn; auto.
    - rewrite app_comm_cons, runs_snoc. destruct (runs init (SetConnected true :: r)) as [s1 tr1].
      assert (S := cinv_step s1 tr1 a). destruct (exec s1 a) as [s2 [e|]]; cbn [fst snd] in *; rewrite ?app_nil_r in S; apply S;
        solve [intros ->; apply N; apply in_or_app; right; left; reflexivity | apply IH; intros H; apply N; apply in_or_app; left; exact H]. }
  exact (c_tr _ _ X t n q).
Qed.

Example C63_stays_connected_example : stays_connected unanswered.
Proof.
  eexists. split; [reflexivity|]. vm_compute. intros H.
  repeat (destruct H as [H|H]; [discriminate H|]). destruct H.
Qed.

Print Assumptions C63_sent_at_most_five_times.
Print Assumptions C63_not_connected_only_if_lost.
