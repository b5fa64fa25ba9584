(** C81: the provider's process knows which processes have receive handlers. *)
From Verif Require Import Base RemoteRegModel.

(** * Specification vocabulary

    A history lists the operations performed so far, the latest first. *)

(** Proxy [p] is subscribed: its last successful Subscribe was not followed by Unsubscribe. *)
Fixpoint subscribed (h : list op) (p : nat) : bool :=
  match h with
  | [] => false
  | Subscribe q ok :: h => ((q =? p) && ok) || subscribed h p
  | Unsubscribe q :: h | Destroy q :: h => negb (q =? p) && subscribed h p
  | _ :: h => subscribed h p
  end.

(** Proxy [p] has a receive handler: set, and since then neither removed nor unsubscribed. *)
Fixpoint has_handler (h : list op) (p : nat) : bool :=
  match h with
  | [] => false
  | SetHandler q :: h => (q =? p) || has_handler h p
  | UnsetHandler q :: h | Destroy q :: h => negb (q =? p) && has_handler h p
  | Unsubscribe q :: h => negb ((q =? p) && subscribed h p) && has_handler h p
  | _ :: h => has_handler h p
  end.

(** The processes that have offered the service instance so far. *)
Fixpoint providers (pid0 : N) (h : list op) : list N :=
  match h with
  | [] => [pid0]
  | ProviderStart pid _ :: h => pid :: providers pid0 h
  | _ :: h => providers pid0 h
  end.

(** Number of operations that can register a handler. *)
Fixpoint registering (h : list op) : nat :=
  match h with
  | [] => 0
  | (Subscribe _ _ | SetHandler _ | Notify _ _) :: h => S (registering h)
  | _ :: h => registering h
  end.

(** Executions in which every operation satisfies [ok] in the history and state it is done in. *)
Inductive reach (pid0 : N) (ok : list op -> st -> op -> Prop) : list op -> st -> Prop :=
| reach_init : reach pid0 ok [] (init pid0)
| reach_step h s o s' : reach pid0 ok h s -> ok h s o -> step s o = Some s' -> reach pid0 ok (o :: h) s'.

(** No message is waiting to be sent. *)
Definition all_sent (s : st) : Prop := out s = [].
(** Proxy [p] exists and service discovery has told it that the service instance is there. *)
Definition told_available (s : st) (p : nat) : Prop := p < np s /\ x_live (xs s p) = true /\ x_avail (xs s p) = true.
(** All existing proxies have been told [a]. *)
Definition all_told (s : st) (a : bool) : Prop :=
  forall p, p < np s -> x_live (xs s p) = true -> x_avail (xs s p) = a.
(** The provider is away, or every registered handler is registered with the current provider. *)
Definition settled (s : st) : Prop :=
  off s = true -> forall p, p < np s -> x_reg (xs s p) = true -> x_pid (xs s p) = prov s.

(** The conditions under which the bookkeeping is right:
    - the calls of the process do not overlap and every message arrives;
    - a handler is neither replaced nor removed while the subscription is pending, and a proxy does
      not unsubscribe while its handler waits for the provider;
    - while a new provider has not yet been announced to all proxies with a handler, none of them
      gives up its handler;
    - service discovery tells every proxy about each end and each start, once and in time. *)
Definition orderly (s : st) (o : op) : Prop :=
  match o with
  | Deliver i arrives => arrives = true
  | Create => all_sent s
  | Subscribe _ _ => all_sent s
  | SetHandler p => all_sent s /\ (x_st (xs s p) = Pend -> x_reg (xs s p) = false)
  | UnsetHandler p => all_sent s /\ (x_st (xs s p) = Pend -> x_reg (xs s p) = false) /\ settled s
  | Unsubscribe p => all_sent s /\ (x_st (xs s p) = Pend -> x_stored (xs s p) = false) /\ settled s
  | Destroy p => all_sent s /\ settled s
  | Notify p a => all_sent s /\ a = off s /\ (a = false -> x_avail (xs s p) = true)
  | ProviderStop => all_sent s /\ all_told s true
  | ProviderStart _ _ => all_sent s /\ all_told s false
  end.

(** … a new provider process does not have the pid of an earlier one, and at most 65535 operations
    register a handler. *)
Definition orderly_any (pid0 : N) (h : list op) (s : st) (o : op) : Prop :=
  orderly s o
  /\ (N.of_nat (registering h) < 65535)%N
  /\ (forall pid, o = ProviderStart pid true -> ~ In pid (providers pid0 h)).

(** … every provider is a new process, and the process has at most 65535 proxies. *)
Definition orderly_restarts (pid0 : N) (h : list op) (s : st) (o : op) : Prop :=
  orderly s o
  /\ (o = Create -> (N.of_nat (np s) < 65535)%N)
  /\ (forall pid fresh, o = ProviderStart pid fresh -> fresh = true /\ ~ In pid (providers pid0 h)).

(** * Invariant *)

Definition gn (v : N) (x : px) : bool := x_reg x && (x_pid x =? v)%N.
Definition go (v : N) (x : px) : bool := x_reg x && negb (x_pid x =? v)%N.
Definition rn (s : st) : nat := countb (fun p => gn (prov s) (xs s p)) (np s).
Definition ro (s : st) : nat := countb (fun p => go (prov s) (xs s p)) (np s).
(** what the processes will know when the queued messages have arrived *)
Definition eff (s : st) : N -> bool := fold_left receive (concat (out s)) (knows s).

Record pinv (ex : bool) (h : list op) (v : N) (o : bool) (p : nat) (x : px) : Prop := PI {
  p_gone : x_live x = false -> x_reg x = false /\ x_st x = NotSub;
  p_sub : subscribed h p = match x_st x with NotSub => false | _ => true end;
  p_has : x_live x = true -> has_handler h p = x_stored x || x_reg x;
  p_one : x_stored x = true -> x_reg x = true -> False;
  p_not : x_st x = NotSub -> x_reg x = false;
  p_pend : x_st x = Pend -> x_avail x = false;
  p_subd : x_st x = Subd -> x_avail x = true /\ x_stored x = false;
  p_set : x_live x = true -> x_stored x || x_reg x = true -> x_set x = true;
  p_avail : x_live x = true -> x_avail x = true -> x_pid x = v;
  p_down : x_reg x = true -> o = false -> x_pid x = v;
  p_old : ex = true -> x_reg x = true -> x_avail x = false -> o = true -> x_pid x <> v
}.

Definition entinv (ex : bool) (pids : list N) (v : N) (r r' : nat) (ef : N -> bool) (k : nat) (e : entry) : Prop :=
  match e with
  | None => r = 0 /\ r' = 0
  | Some (n, c) =>
      (0 < c)%N /\ (c <= N.of_nat k)%N /\ ef n = true /\ In n pids
      /\ (n = v -> (N.of_nat r <= c)%N /\ (ex = true -> c = N.of_nat r))
      /\ (n <> v -> r = 0 /\ (ex = true -> 0 < r'))
  end
  /\ (ex = true -> ef v = true -> 0 < r).

Record inv (pid0 : N) (ex : bool) (h : list op) (s : st) : Prop := INV {
  i_dead : dead s = false;
  i_out : length (out s) <= 1;
  i_new : forall p, np s <= p -> subscribed h p = false /\ has_handler h p = false;
  i_px : forall p, p < np s -> pinv ex h (prov s) (off s) p (xs s p);
  i_prov : In (prov s) (providers pid0 h);
  i_ent : entinv ex (providers pid0 h) (prov s) (rn s) (ro s) (eff s) (registering h) (ent s)
}.

(** ** The three table operations *)

Ltac fin := repeat split; intros; try lia; auto; try congruence;
  try (match goal with EX : _ = true -> _, A : _ = true |- _ => specialize (EX A) end; lia).


Lemma fold_receive_app k a b : fold_left receive (a ++ b) k = fold_left receive b (fold_left receive a k).
Proof. apply fold_left_app. Qed.

Lemma register_ok ex pids v r r' k ms ef e e' ms' ab' :
  entinv ex pids v r r' (fold_left receive ms ef) k e ->
  In v pids ->
  (forall c, e = Some (v, c) -> (c < 65535)%N) ->
  register_remote (e, ms, false) v = (e', ms', ab') ->
  ab' = false /\ entinv ex pids v (S r) r' (fold_left receive ms' ef) (S k) e'.
Proof.
  intros [E X] IN B R. unfold register_remote in R.
  destruct e as [[n c]|].
  - destruct E as (C0 & C1 & C2 & C3 & C4 & C5).
    destruct (n =? v)%N eqn:NV.
    + apply N.eqb_eq in NV. subst n. specialize (B c eq_refl).
      destruct (C4 eq_refl) as [L EX].
      rewrite N.mod_small in R by (unfold two16; lia).
      destruct (c + 1 =? 1)%N eqn:Q; [apply N.eqb_eq in Q; lia|].
      injection R as <- <- <-. split; [reflexivity|]. split.
      * fin.
      * intros; lia.
    + apply N.eqb_neq in NV. destruct (C5 NV) as [-> R'].
      rewrite N.eqb_refl in R. injection R as <- <- <-. split; [reflexivity|]. split.
      * rewrite fold_receive_app. cbn. rewrite N.eqb_refl.
        fin.
      * intros; lia.
  - destruct E as [-> ->]. rewrite N.eqb_refl in R. injection R as <- <- <-. split; [reflexivity|]. split.
    + rewrite fold_receive_app. cbn. rewrite N.eqb_refl. fin.
    + intros; lia.
Qed.

Lemma unregister_ok ex pids v r k ms ef e e' ms' ab' :
  entinv ex pids v (S r) 0 (fold_left receive ms ef) k e ->
  unregister_remote (e, ms, false) v = (e', ms', ab') ->
  ab' = false /\ entinv ex pids v r 0 (fold_left receive ms' ef) k e'.
Proof.
  intros [E X] R. unfold unregister_remote in R.
  destruct e as [[n c]|].
  2:{ destruct E; lia. }
  destruct E as (C0 & C1 & C2 & C3 & C4 & C5).
  destruct (c =? 0)%N eqn:Z0; [apply N.eqb_eq in Z0; lia|].
  destruct (n =? v)%N eqn:NV; cbn [negb] in R.
  2:{ apply N.eqb_neq in NV. destruct (C5 NV); lia. }
  apply N.eqb_eq in NV. subst n. destruct (C4 eq_refl) as [L EX].
  destruct (c - 1 =? 0)%N eqn:Z1.
  - apply N.eqb_eq in Z1. injection R as <- <- <-. split; [reflexivity|]. split.
    + split; [lia|reflexivity].
    + rewrite fold_receive_app. cbn. rewrite N.eqb_refl. discriminate.
  - apply N.eqb_neq in Z1. injection R as <- <- <-. split; [reflexivity|]. split.
    + fin.
    + intros A _. apply EX in A. lia.
Qed.

Lemma replace_ok ex pids v r r' k ms ef e e1 ms1 ab1 e' ms' ab' :
  entinv ex pids v (S r) r' (fold_left receive ms ef) k e ->
  In v pids ->
  (forall c, e = Some (v, c) -> (c <= 65535)%N) ->
  unregister_remote (e, ms, false) v = (e1, ms1, ab1) ->
  register_remote (e1, ms1, ab1) v = (e', ms', ab') ->
  ab' = false /\ entinv ex pids v (S r) r' (fold_left receive ms' ef) (S k) e'.
Proof.
  intros [E X] IN B U R. unfold unregister_remote in U. unfold register_remote in R.
  destruct e as [[n c]|].
  2:{ destruct E; lia. }
  destruct E as (C0 & C1 & C2 & C3 & C4 & C5).
  destruct (c =? 0)%N eqn:Z0; [apply N.eqb_eq in Z0; lia|].
  destruct (n =? v)%N eqn:NV; cbn [negb] in U.
  2:{ apply N.eqb_neq in NV. destruct (C5 NV); lia. }
  apply N.eqb_eq in NV. subst n. destruct (C4 eq_refl) as [L EX]. specialize (B c eq_refl).
  destruct (c - 1 =? 0)%N eqn:Z1.
  - apply N.eqb_eq in Z1. injection U as <- <- <-. rewrite N.eqb_refl in R. injection R as <- <- <-.
    split; [reflexivity|]. split.
    + rewrite !fold_receive_app. cbn. rewrite N.eqb_refl.
      fin.
    + intros; lia.
  - apply N.eqb_neq in Z1. injection U as <- <- <-. rewrite N.eqb_refl in R.
    rewrite N.mod_small in R by (unfold two16; lia).
    destruct (c - 1 + 1 =? 1)%N eqn:Q; [apply N.eqb_eq in Q; lia|].
    injection R as <- <- <-. split; [reflexivity|]. split.
    + fin.
    + intros; lia.
Qed.

Lemma reregister_old ex pids v r r' k ms ef e e' ms' ab' :
  entinv ex pids v r (S r') (fold_left receive ms ef) k e ->
  In v pids ->
  (forall c, e = Some (v, c) -> (c < 65535)%N) ->
  reregister_remote (e, ms, false) v = (e', ms', ab') ->
  ab' = false /\ entinv ex pids v (S r) r' (fold_left receive ms' ef) (S k) e'.
Proof.
  intros [E X] IN B R. unfold reregister_remote in R.
  destruct e as [[n c]|].
  2:{ destruct E; lia. }
  destruct E as (C0 & C1 & C2 & C3 & C4 & C5).
  destruct (n =? v)%N eqn:NV.
  - apply N.eqb_eq in NV. subst n. destruct (C4 eq_refl) as [L EX]. specialize (B c eq_refl).
    rewrite N.mod_small in R by (unfold two16; lia).
    injection R as <- <- <-. split; [reflexivity|]. split.
    + fin.
    + intros; lia.
  - apply N.eqb_neq in NV. destruct (C5 NV) as [-> R'].
    injection R as <- <- <-. split; [reflexivity|]. split.
    + rewrite fold_receive_app. cbn. rewrite N.eqb_refl.
      fin.
    + intros; lia.
Qed.

Lemma reregister_same pids v r r' k ms ef e e' ms' ab' :
  entinv false pids v (S r) r' (fold_left receive ms ef) k e ->
  (forall c, e = Some (v, c) -> (c < 65535)%N) ->
  reregister_remote (e, ms, false) v = (e', ms', ab') ->
  ab' = false /\ entinv false pids v (S r) r' (fold_left receive ms' ef) (S k) e'.
Proof.
  intros [E X] B R. unfold reregister_remote in R.
  destruct e as [[n c]|].
  2:{ destruct E; lia. }
  destruct E as (C0 & C1 & C2 & C3 & C4 & C5).
  destruct (n =? v)%N eqn:NV.
  2:{ apply N.eqb_neq in NV. destruct (C5 NV); lia. }
  apply N.eqb_eq in NV. subst n. destruct (C4 eq_refl) as [L EX]. specialize (B c eq_refl).
  rewrite N.mod_small in R by (unfold two16; lia).
  injection R as <- <- <-. split; [reflexivity|]. split.
  + fin.
  + intros; lia.
Qed.

(** ** Steps *)

Definition b2n (b : bool) : nat := if b then 1 else 0.

Definition frame (h : list op) (o : op) (p : nat) : Prop :=
  forall q, q <> p -> subscribed (o :: h) q = subscribed h q /\ has_handler (o :: h) q = has_handler h q.

Lemma pinv_frame ex h h' v o p x :
  subscribed h' p = subscribed h p -> has_handler h' p = has_handler h p ->
  pinv ex h v o p x -> pinv ex h' v o p x.
Proof.
  intros A B P. destruct P. constructor; auto.
  - rewrite A. assumption.
  - intros L. rewrite B. auto.
Qed.

Lemma put_inv pid0 ex h s o p x' e' ms' :
  inv pid0 ex h s -> all_sent s -> p < np s ->
  frame h o p -> providers pid0 (o :: h) = providers pid0 h ->
  pinv ex (o :: h) (prov s) (off s) p x' ->
  (forall R R', R + b2n (gn (prov s) (xs s p)) = rn s + b2n (gn (prov s) x') ->
                R' + b2n (go (prov s) (xs s p)) = ro s + b2n (go (prov s) x') ->
                entinv ex (providers pid0 h) (prov s) R R' (fold_left receive ms' (knows s)) (registering (o :: h)) e') ->
  inv pid0 ex (o :: h) (put s p (x', (e', ms', false))).
Proof.
  intros I A L F PR P E. destruct I as [Id Io In_ Ip Iv Ie].
  assert (OUT : match ms' with [] => out s | _ => out s ++ [ms'] end = match ms' with [] => [] | _ => [ms'] end).
  { unfold all_sent in A. rewrite A. destruct ms'; reflexivity. }
  constructor; unfold put; cbn [dead out np xs prov off ent knows]; try rewrite OUT.
  - reflexivity.
  - destruct ms'; cbn; lia.
  - intros q Q. destruct (F q) as [-> ->]; [lia|]. apply In_, Q.
  - intros q Q. destruct (Nat.eq_dec q p) as [->|N].
    + rewrite fupd_eq. exact P.
    + rewrite fupd_neq by exact N. destruct (F q N) as [S H]. eapply pinv_frame; [exact S|exact H|]. apply Ip, Q.
  - rewrite PR. exact Iv.
  - rewrite PR.
    assert (EF : eff (mkS (prov s) (off s) (knows s) e' (np s) (fupd (xs s) p x') (match ms' with [] => [] | _ => [ms'] end) false)
            = fold_left receive ms' (knows s)).
    { unfold eff. cbn [out knows]. destruct ms'; cbn [concat]; [reflexivity|]. rewrite app_nil_r. reflexivity. }
    rewrite EF. apply E.
    + unfold rn. cbn [prov np xs].
      pose proof (countb_change (fun q => gn (prov s) (xs s q)) (fun q => gn (prov s) (fupd (xs s) p x' q)) (np s) p L) as C.
      cbn beta in C. rewrite fupd_eq in C. unfold b2n. apply C.
      intros j J NJ. rewrite fupd_neq by exact NJ. reflexivity.
    + unfold ro. cbn [prov np xs].
      pose proof (countb_change (fun q => go (prov s) (xs s q)) (fun q => go (prov s) (fupd (xs s) p x' q)) (np s) p L) as C.
      cbn beta in C. rewrite fupd_eq in C. unfold b2n. apply C.
      intros j J NJ. rewrite fupd_neq by exact NJ. reflexivity.
Qed.

(** a proxy's own contribution *)
Lemma rn_pos s p : p < np s -> gn (prov s) (xs s p) = true -> 0 < rn s.
Proof. intros L G. unfold rn. eapply countb_pos; [exact L|exact G]. Qed.
Lemma ro_pos s p : p < np s -> go (prov s) (xs s p) = true -> 0 < ro s.
Proof. intros L G. unfold ro. eapply countb_pos; [exact L|exact G]. Qed.
Lemma ro_zero s : (forall p, p < np s -> x_reg (xs s p) = true -> x_pid (xs s p) = prov s) -> ro s = 0.
Proof.
  intros H. unfold ro. apply countb_zero. intros p L. unfold go.
  destruct (x_reg (xs s p)) eqn:R; [|reflexivity]. rewrite (H p L R), N.eqb_refl. reflexivity.
Qed.
Lemma rn_lt s p : p < np s -> gn (prov s) (xs s p) = false -> rn s < np s.
Proof.
  intros L G. unfold rn.
  pose proof (countb_le (fun q => gn (prov s) (fupd (xs s) p (mkX true NotSub true (prov s) false true true) q)) (np s)) as B.
  pose proof (countb_change (fun q => gn (prov s) (xs s q))
                (fun q => gn (prov s) (fupd (xs s) p (mkX true NotSub true (prov s) false true true) q)) (np s) p L) as C.
  cbn beta in C. rewrite fupd_eq, G in C. cbn [gn x_reg x_pid andb] in C. rewrite N.eqb_refl in C.
  assert (D := C ltac:(intros j J NJ; rewrite fupd_neq by exact NJ; reflexivity)). lia.
Qed.

(** the counter does not overflow *)
Definition room (ex : bool) (h : list op) (s : st) : Prop :=
  if ex then (N.of_nat (np s) <= 65535)%N else (N.of_nat (registering h) < 65535)%N.

Lemma counter_lt pid0 ex h s p c :
  inv pid0 ex h s -> room ex h s -> p < np s -> gn (prov s) (xs s p) = false ->
  ent s = Some (prov s, c) -> (c < 65535)%N.
Proof.
  intros I B L G E. destruct (i_ent _ _ _ _ I) as [Q _]. rewrite E in Q.
  destruct Q as (_ & C & _ & _ & Q & _). destruct (Q eq_refl) as [_ X].
  destruct ex; cbn [room] in B.
  - rewrite (X eq_refl). pose proof (rn_lt s p L G). lia.
  - lia.
Qed.

Lemma counter_le pid0 ex h s c :
  inv pid0 ex h s -> room ex h s -> ent s = Some (prov s, c) -> (c <= 65535)%N.
Proof.
  intros I B E. destruct (i_ent _ _ _ _ I) as [Q _]. rewrite E in Q.
  destruct Q as (_ & C & _ & _ & Q & _). destruct (Q eq_refl) as [_ X].
  destruct ex; cbn [room] in B.
  - rewrite (X eq_refl). pose proof (countb_le (fun p => gn (prov s) (xs s p)) (np s)). unfold rn. lia.
  - lia.
Qed.

Lemma entinv_more ex pids v r r' ef k k' e : k <= k' -> entinv ex pids v r r' ef k e -> entinv ex pids v r r' ef k' e.
Proof.
  intros K [E X]. split; [|exact X]. destruct e as [[n c]|]; [|exact E].
  destruct E as (C0 & C1 & C2). split; [exact C0|]. split; [lia|exact C2].
Qed.

Lemma ent0 pid0 ex h s : inv pid0 ex h s -> all_sent s ->
  entinv ex (providers pid0 h) (prov s) (rn s) (ro s) (fold_left receive [] (knows s)) (registering h) (ent s).
Proof.
  intros I A. pose proof (i_ent _ _ _ _ I) as E. unfold eff in E. unfold all_sent in A. rewrite A in E. exact E.
Qed.

Lemma call_some s p f s' : call s p f = Some s' ->
  p < np s /\ x_live (xs s p) = true /\ s' = put s p (f (xs s p) (ent s, [], false)).
Proof.
  unfold call. destruct ((p <? np s) && x_live (xs s p)) eqn:B; [|discriminate].
  apply andb_true_iff in B as [A L]. apply Nat.ltb_lt in A. intros E. injection E as <-. auto.
Qed.

(** calls that are made only when no handler is registered with an earlier provider *)
Definition settles (o : op) : bool :=
  match o with UnsetHandler _ | Unsubscribe _ | Destroy _ => true | _ => false end.

(** What a call of proxy [p] needs to know, and what it has to establish. *)
Definition local (ex : bool) (h : list op) (o : op) (p : nat) (V : N) (O : bool) (f : px -> breg -> px * breg) (x : px) : Prop :=
  forall pids r r' ef e,
    pinv ex h V O p x -> x_live x = true -> In V pids ->
    entinv ex pids V r r' (fold_left receive [] ef) (registering h) e ->
    (gn V x = true -> 0 < r) -> (go V x = true -> 0 < r') ->
    (gn V x = false -> forall c, e = Some (V, c) -> (c < 65535)%N) ->
    (forall c, e = Some (V, c) -> (c <= 65535)%N) ->
    (ex = false -> forall c, e = Some (V, c) -> (c < 65535)%N) ->
    (settles o = true -> r' = 0) ->
    exists x' e' ms', f x (e, [], false) = (x', (e', ms', false))
      /\ pinv ex (o :: h) V O p x'
      /\ forall R R', R + b2n (gn V x) = r + b2n (gn V x') -> R' + b2n (go V x) = r' + b2n (go V x') ->
                      entinv ex pids V R R' (fold_left receive ms' ef) (registering (o :: h)) e'.

Lemma call_inv pid0 ex h s o p f s' :
  inv pid0 ex h s -> room ex h s -> all_sent s -> (settles o = true -> settled s) ->
  frame h o p -> providers pid0 (o :: h) = providers pid0 h ->
  local ex h o p (prov s) (off s) f (xs s p) ->
  call s p f = Some s' -> inv pid0 ex (o :: h) s'.
Proof.
  intros I RM A ST F PR LO S. apply call_some in S as (L & LV & ->).
  destruct (LO (providers pid0 h) (rn s) (ro s) (knows s) (ent s) (i_px _ _ _ _ I p L) LV (i_prov _ _ _ _ I)
              (ent0 _ _ _ _ I A) (rn_pos s p L) (ro_pos s p L)) as (x' & e' & ms' & E & P & Q).
  - intros G c. apply (counter_lt pid0 ex h s p c I RM L G).
  - intros c. apply (counter_le pid0 ex h s c I RM).
  - intros -> c E. cbn [room] in RM. destruct (i_ent _ _ _ _ I) as [Q _]. rewrite E in Q. lia.
  - intros T. apply ro_zero. intros q Lq Rq. destruct (off s) eqn:OF.
    + apply (ST T OF q Lq Rq).
    + pose proof (i_px _ _ _ _ I q Lq) as PQ. rewrite OF in PQ. apply (p_down _ _ _ _ _ _ PQ Rq eq_refl).
  - rewrite E. apply put_inv; assumption.
Qed.

Ltac frames := intros q Q; cbn [subscribed has_handler];
  match goal with |- context [?a =? ?b] => let E := fresh in destruct (a =? b) eqn:E; [apply Nat.eqb_eq in E; congruence|] end;
  cbn; auto.
Ltac cbx := cbn [x_live x_st x_avail x_pid x_stored x_reg x_set xs_st xs_avail xs_pid xs_stored xs_reg xs_set xs_gone
                 gn go andb orb negb b2n] in *.

(** nothing changes in the table *)
Lemma ent_same ex pids V r r' ef k k' e R R' x x' :
  entinv ex pids V r r' (fold_left receive [] ef) k e -> k <= k' ->
  gn V x' = gn V x -> go V x' = go V x ->
  R + b2n (gn V x) = r + b2n (gn V x') -> R' + b2n (go V x) = r' + b2n (go V x') ->
  entinv ex pids V R R' (fold_left receive [] ef) k' e.
Proof.
  intros E K -> -> A B. assert (R = r) as -> by lia. assert (R' = r') as -> by lia.
  eapply entinv_more; [exact K|exact E].
Qed.

Ltac pinv_solve :=
  constructor; cbx; cbn [subscribed has_handler]; rewrite ?Nat.eqb_refl; cbn [andb orb negb];
  try solve [intros; discriminate | auto | intros; try split; first [congruence | auto]].

Lemma local_subscribe ex h p ok V O x : local ex h (Subscribe p ok) p V O (fun x b => if ok then x_subscribe x b else (x, b)) x.
Proof.
  intros pids r r' ef e P LV IN E0 RP OP CL CE CX SR.
  destruct ok.
  2:{ exists x, e, []. split; [reflexivity|]. split.
      - eapply pinv_frame; [| |exact P]; cbn [subscribed has_handler]; rewrite ?andb_false_r; reflexivity.
      - intros R R' A B. eapply ent_same; [exact E0| | | |exact A|exact B]; cbn [registering]; auto. }
  destruct x as [xl xt xa xp xst xr xse]. destruct P as [Pg Ps Ph P1 Pn Pp Pd Pse Pa Pdn Po]. cbx. subst xl.
  unfold x_subscribe. cbx. destruct xt.
  - rewrite (Pn eq_refl) in *. destruct xa.
    + rewrite (Pa eq_refl eq_refl) in *. destruct xst.
      * unfold mgr_register, mgr_unregister. cbx.
        destruct (register_remote (e, [], false) V) as [[e' ms'] ab'] eqn:RR.
        destruct (register_ok _ _ _ _ _ _ _ _ _ _ _ _ E0 IN (CL eq_refl) RR) as [-> EV].
        exists (mkX true Subd true V false true xse), e', ms'. split; [reflexivity|]. split.
        -- pinv_solve.
        -- cbx. rewrite N.eqb_refl. cbx. intros R R' A B. replace R with (S r) by (clear - A; lia). replace R' with r' by (clear - B; lia). exact EV.
      * exists (mkX true Subd true V false false xse), e, []. split; [reflexivity|]. split.
        -- pinv_solve.
        -- intros R R' A B. eapply ent_same; [exact E0| | | |exact A|exact B]; cbn [registering]; auto.
    + exists (mkX true Pend false xp xst false xse), e, []. split; [reflexivity|]. split.
      * pinv_solve.
      * intros R R' A B. eapply ent_same; [exact E0| | | |exact A|exact B]; cbn [registering]; auto.
  - eexists _, e, []. split; [reflexivity|]. split.
    + pinv_solve.
    + intros R R' A B. eapply ent_same; [exact E0| | | |exact A|exact B]; cbn [registering]; auto.
  - eexists _, e, []. split; [reflexivity|]. split.
    + pinv_solve.
    + intros R R' A B. eapply ent_same; [exact E0| | | |exact A|exact B]; cbn [registering]; auto.
Qed.

Ltac refl := unfold gn, go in *; cbx;
  repeat match goal with
         | H : context [(?a =? ?a)%N] |- _ => rewrite (N.eqb_refl a) in H
         | |- context [(?a =? ?a)%N] => rewrite (N.eqb_refl a)
         end; cbx.

Ltac same E0 := let R := fresh in let R' := fresh in let A := fresh in let B := fresh in
  intros R R' A B; eapply ent_same; [exact E0| | | |exact A|exact B]; cbn [registering]; auto.

Ltac same2 E0 r r' := refl; let R := fresh in let R' := fresh in let A := fresh in let B := fresh in
  intros R R' A B; replace R with r by (clear - A; lia); replace R' with r' by (clear - B; lia);
  eapply entinv_more; [|exact E0]; cbn [registering]; auto.

Lemma settled_pid V xl xt xa xp xst xse r' :
  (go V (mkX xl xt xa xp xst true xse) = true -> 0 < r') -> r' = 0 -> xp = V.
Proof.
  intros OP Z. unfold go in OP. cbn [x_reg x_pid andb] in OP.
  destruct (N.eqb_spec xp V) as [E|E]; [exact E|]. exfalso. cbn [negb] in OP. specialize (OP eq_refl). lia.
Qed.

Lemma local_unsubscribe ex h p V O x :
  (x_st x = Pend -> x_stored x = false) ->
  local ex h (Unsubscribe p) p V O x_unsubscribe x.
Proof.
  intros OKP pids r r' ef e P LV IN E0 RP OP CL CE CX SR. specialize (SR eq_refl).
  destruct x as [xl xt xa xp xst xr xse]. destruct P as [Pg Ps Ph P1 Pn Pp Pd Pse Pa Pdn Po]. cbx. subst xl.
  assert (NS : xt = NotSub \/ (xst = false /\ subscribed h p = true /\ xt <> NotSub)).
  { destruct xt; [left; reflexivity|right|right]; (split; [|split]); auto; try discriminate; apply Pd; reflexivity. }
  unfold x_unsubscribe. cbx. destruct NS as [->|(-> & SB & NN)].
  { eexists _, e, []. split; [reflexivity|]. split; [|same E0].
    constructor; cbx; cbn [subscribed has_handler]; try rewrite Nat.eqb_refl; try rewrite Ps; cbn [andb orb negb]; auto. }
  assert (X : x_unsubscribe {| x_live := true; x_st := xt; x_avail := xa; x_pid := xp; x_stored := false; x_reg := xr; x_set := xse |} (e, [], false)
            = mgr_unregister (mkX true NotSub xa xp false xr xse) (e, [], false)).
  { unfold x_unsubscribe. cbx. destruct xt; [exfalso; apply NN; reflexivity|reflexivity|reflexivity]. }
  unfold x_unsubscribe in X. cbx. rewrite X. clear X.
  assert (PV : forall pp, (xa = true -> pp = V) -> pinv ex (Unsubscribe p :: h) V O p (mkX true NotSub xa pp false false xse)).
  { intros pp HP. constructor; cbx; cbn [subscribed has_handler]; try rewrite Nat.eqb_refl; try rewrite SB; cbn [andb orb negb]; auto; try discriminate. }
  unfold mgr_unregister. cbx. destruct xr.
  - pose proof (settled_pid V true xt xa xp false xse r' OP SR) as ->. refl. subst r'.
    specialize (RP eq_refl). destruct r as [|r]; [clear - RP; lia|].
    destruct (unregister_remote (e, [], false) V) as [[e' ms'] ab'] eqn:RR.
    destruct (unregister_ok _ _ _ _ _ _ _ _ _ _ _ E0 RR) as [-> EV].
    eexists _, e', ms'. split; [reflexivity|]. split; [apply PV; auto|].
    refl. intros R R' A B. replace R with r by (clear - A; lia). replace R' with 0 by (clear - B; lia). exact EV.
  - eexists _, e, []. split; [reflexivity|]. split; [apply PV; auto|]. same E0.
Qed.

Lemma local_destroy ex h p V O x :
  local ex h (Destroy p) p V O (fun x b => let '(x, b) := x_unsubscribe x b in (xs_gone x, b)) x.
Proof.
  intros pids r r' ef e P LV IN E0 RP OP CL CE CX SR. specialize (SR eq_refl).
  destruct x as [xl xt xa xp xst xr xse]. destruct P as [Pg Ps Ph P1 Pn Pp Pd Pse Pa Pdn Po]. cbx. subst xl.
  assert (X : x_unsubscribe {| x_live := true; x_st := xt; x_avail := xa; x_pid := xp; x_stored := xst; x_reg := xr; x_set := xse |} (e, [], false)
            = mgr_unregister (mkX true NotSub xa xp xst xr xse) (e, [], false)).
  { unfold x_unsubscribe. cbx. destruct xt; [|reflexivity|reflexivity]. unfold mgr_unregister. cbx. rewrite (Pn eq_refl). reflexivity. }
  rewrite X. clear X.
  assert (PV : pinv ex (Destroy p :: h) V O p (mkX false NotSub xa xp xst false xse)).
  { constructor; cbx; cbn [subscribed has_handler]; rewrite ?Nat.eqb_refl; cbn [andb orb negb]; auto; try discriminate. }
  unfold mgr_unregister. cbx. destruct xr.
  - pose proof (settled_pid V true xt xa xp xst xse r' OP SR) as ->. refl. subst r'.
    specialize (RP eq_refl). destruct r as [|r]; [clear - RP; lia|].
    destruct (unregister_remote (e, [], false) V) as [[e' ms'] ab'] eqn:RR.
    destruct (unregister_ok _ _ _ _ _ _ _ _ _ _ _ E0 RR) as [-> EV].
    eexists _, e', ms'. split; [reflexivity|]. split; [exact PV|].
    refl. intros R R' A B. replace R with r by (clear - A; lia). replace R' with 0 by (clear - B; lia). exact EV.
  - eexists _, e, []. split; [reflexivity|]. split; [exact PV|]. same E0.
Qed.

Lemma local_set ex h p V O x :
  (x_st x = Pend -> x_reg x = false) ->
  local ex h (SetHandler p) p V O x_sethandler x.
Proof.
  intros OKP pids r r' ef e P LV IN E0 RP OP CL CE CX SR. clear SR.
  destruct x as [xl xt xa xp xst xr xse]. destruct P as [Pg Ps Ph P1 Pn Pp Pd Pse Pa Pdn Po]. cbx. subst xl.
  unfold x_sethandler. cbx. destruct xt.
  - rewrite (Pn eq_refl) in *. eexists _, e, []. split; [reflexivity|]. split; [pinv_solve|same E0].
  - rewrite (OKP eq_refl) in *. eexists _, e, []. split; [reflexivity|]. split; [pinv_solve|same E0].
  - destruct (Pd eq_refl) as [-> ->]. rewrite (Pa eq_refl eq_refl) in *. refl.
    unfold mgr_register, mgr_unregister. cbx. destruct xr; cbx.
    + specialize (RP eq_refl). destruct r as [|r]; [clear - RP; lia|].
      destruct (unregister_remote (e, [], false) V) as [[e1 ms1] ab1] eqn:U1.
      destruct (register_remote (e1, ms1, ab1) V) as [[e' ms'] ab'] eqn:RR.
      destruct (replace_ok _ _ _ _ _ _ _ _ _ _ _ _ _ _ _ E0 IN CE U1 RR) as [-> EV].
      eexists _, e', ms'. split; [reflexivity|]. split; [pinv_solve|].
      refl. intros R R' A B. replace R with (S r) by (clear - A; lia). replace R' with r' by (clear - B; lia). exact EV.
    + destruct (register_remote (e, [], false) V) as [[e' ms'] ab'] eqn:RR.
      destruct (register_ok _ _ _ _ _ _ _ _ _ _ _ _ E0 IN (CL eq_refl) RR) as [-> EV].
      eexists _, e', ms'. split; [reflexivity|]. split; [pinv_solve|].
      refl. intros R R' A B. replace R with (S r) by (clear - A; lia). replace R' with r' by (clear - B; lia). exact EV.
Qed.

Lemma local_unset ex h p V O x :
  (x_st x = Pend -> x_reg x = false) ->
  local ex h (UnsetHandler p) p V O x_unsethandler x.
Proof.
  intros OKP pids r r' ef e P LV IN E0 RP OP CL CE CX SR. specialize (SR eq_refl).
  destruct x as [xl xt xa xp xst xr xse]. destruct P as [Pg Ps Ph P1 Pn Pp Pd Pse Pa Pdn Po]. cbx. subst xl.
  unfold x_unsethandler. cbx. destruct xse.
  2:{ assert (xst = false /\ xr = false) as [-> ->].
      { destruct xst, xr; auto; cbn in Pse; specialize (Pse eq_refl eq_refl); discriminate. }
      eexists _, e, []. split; [reflexivity|]. split; [pinv_solve|same E0]. }
  destruct xt.
  - rewrite (Pn eq_refl) in *. eexists _, e, []. split; [reflexivity|]. split; [pinv_solve|same E0].
  - rewrite (OKP eq_refl) in *. eexists _, e, []. split; [reflexivity|]. split; [pinv_solve|same E0].
  - destruct (Pd eq_refl) as [-> ->]. rewrite (Pa eq_refl eq_refl) in *. refl.
    unfold mgr_unregister. cbx. destruct xr; cbx.
    + specialize (RP eq_refl). destruct r as [|r]; [clear - RP; lia|]. subst r'.
      destruct (unregister_remote (e, [], false) V) as [[e' ms'] ab'] eqn:RR.
      destruct (unregister_ok _ _ _ _ _ _ _ _ _ _ _ E0 RR) as [-> EV].
      eexists _, e', ms'. split; [reflexivity|]. split; [pinv_solve|].
      refl. intros R R' A B. replace R with r by (clear - A; lia). replace R' with 0 by (clear - B; lia). exact EV.
    + eexists _, e, []. split; [reflexivity|]. split; [pinv_solve|same2 E0 r r'].
Qed.

Lemma local_notify ex h p a V O x :
  a = O -> (a = false -> x_avail x = true) ->
  local ex h (Notify p a) p V O (fun x b => x_notify x b a V) x.
Proof.
  intros -> OKP pids r r' ef e P LV IN E0 RP OP CL CE CX SR. clear SR.
  destruct x as [xl xt xa xp xst xr xse]. destruct P as [Pg Ps Ph P1 Pn Pp Pd Pse Pa Pdn Po]. cbx. subst xl.
  unfold x_notify. destruct O; cbx.
  - destruct xt.
    + rewrite (Pn eq_refl) in *. eexists _, e, []. split; [reflexivity|]. split; [pinv_solve|same E0].
    + rewrite (Pp eq_refl) in *. unfold mgr_reregister. cbx. destruct xst.
      * assert (xr = false) as -> by (destruct xr; [exfalso; auto|reflexivity]).
        unfold mgr_register, mgr_unregister. cbx.
        destruct (register_remote (e, [], false) V) as [[e' ms'] ab'] eqn:RR.
        destruct (register_ok _ _ _ _ _ _ _ _ _ _ _ _ E0 IN (CL eq_refl) RR) as [-> EV].
        eexists _, e', ms'. split; [reflexivity|]. split; [pinv_solve|].
        refl. intros R R' A B. replace R with (S r) by (clear - A; lia). replace R' with r' by (clear - B; lia). exact EV.
      * destruct xr.
        -- destruct (reregister_remote (e, [], false) V) as [[e' ms'] ab'] eqn:RR.
           unfold gn, go in *; cbx. destruct (xp =? V)%N eqn:XV; cbx.
           ++ apply N.eqb_eq in XV. subst xp. destruct ex; [exfalso; apply Po; auto|].
              specialize (RP eq_refl). destruct r as [|r]; [clear - RP; lia|].
              destruct (reregister_same _ _ _ _ _ _ _ _ _ _ _ E0 (CX eq_refl) RR) as [-> EV].
              eexists _, e', ms'. split; [reflexivity|]. split; [pinv_solve|].
              refl. intros R R' A B. replace R with (S r) by (clear - A; lia). replace R' with r' by (clear - B; lia). exact EV.
           ++ specialize (OP eq_refl). destruct r' as [|r']; [clear - OP; lia|].
              destruct (reregister_old _ _ _ _ _ _ _ _ _ _ _ _ E0 IN (CL eq_refl) RR) as [-> EV].
              eexists _, e', ms'. split; [reflexivity|]. split; [pinv_solve|].
              refl. intros R R' A B. replace R with (S r) by (clear - A; lia). replace R' with r' by (clear - B; lia). exact EV.
        -- eexists _, e, []. split; [reflexivity|]. split; [pinv_solve|same2 E0 r r'].
    + eexists _, e, []. split; [reflexivity|]. split; [pinv_solve|same E0].
  - specialize (OKP eq_refl). subst xa. destruct xt.
    + rewrite (Pn eq_refl) in *. eexists _, e, []. split; [reflexivity|]. split; [pinv_solve|same E0].
    + specialize (Pp eq_refl). discriminate.
    + eexists _, e, []. split; [reflexivity|]. split; [|same E0].
      destruct (Pd eq_refl) as [_ ->]. pinv_solve.
Qed.

Lemma pinv_world ex h o h' v off' v' off0 p x :
  subscribed h' p = subscribed h p -> has_handler h' p = has_handler h p ->
  (x_live x = true -> x_avail x = true -> x_pid x = v -> x_pid x = v') ->
  (x_reg x = true -> off' = false -> x_pid x = v') ->
  (ex = true -> x_reg x = true -> x_avail x = false -> off' = true -> x_pid x <> v') ->
  o = off0 -> pinv ex h v off0 p x -> pinv ex h' v' off' p x.
Proof.
  intros A B C D E _ P. destruct P. constructor; auto.
  - rewrite A. assumption.
  - intros L. rewrite B. auto.
Qed.

Lemma step_create pid0 ex h s s' :
  inv pid0 ex h s -> all_sent s -> step s Create = Some s' -> inv pid0 ex (Create :: h) s'.
Proof.
  intros I A S. unfold step in S. rewrite (i_dead _ _ _ _ I) in S. injection S as <-.
  destruct I as [Id Io In_ Ip Iv Ie].
  constructor; cbn [dead out np xs prov off ent knows]; auto.
  - intros p L. apply (In_ p). lia.
  - intros p L. destruct (Nat.eq_dec p (np s)) as [->|N].
    + rewrite fupd_eq. destruct (In_ (np s) (le_n _)) as [S1 S2].
      constructor; cbn [new_px x_live x_st x_avail x_pid x_stored x_reg x_set subscribed has_handler orb];
        auto; try discriminate.
    + rewrite fupd_neq by exact N. eapply pinv_frame; [| |apply Ip; lia]; reflexivity.
  - unfold rn, ro, eff in *. cbn [prov np xs out knows]. cbn [countb].
    rewrite fupd_eq. unfold gn at 1, go at 1. cbn [new_px x_reg andb].
    rewrite (countb_ext _ (fun p => gn (prov s) (xs s p))) by (intros i Li; rewrite fupd_neq by lia; reflexivity).
    rewrite (countb_ext (fun p => go (prov s) (fupd (xs s) (np s) (new_px s) p)) (fun p => go (prov s) (xs s p)))
      by (intros i Li; rewrite fupd_neq by lia; reflexivity).
    cbn [Nat.add registering providers]. exact Ie.
Qed.

Lemma step_deliver pid0 ex h s i s' :
  inv pid0 ex h s -> step s (Deliver i true) = Some s' -> inv pid0 ex (Deliver i true :: h) s'.
Proof.
  intros I S. unfold step in S. rewrite (i_dead _ _ _ _ I) in S. unfold deliver in S.
  destruct I as [Id Io In_ Ip Iv Ie].
  destruct (out s) as [|q [|q2 l]] eqn:OS; cbn in Io; [destruct i; discriminate| |lia].
  destruct i as [|i]; [|destruct i; discriminate]. cbn [nth_error firstn skipn app] in S.
  destruct q as [|m ms]; [discriminate|]. injection S as <-. rewrite app_nil_r.
  constructor; cbn [dead out np xs prov off ent knows]; auto.
  - destruct ms; cbn; lia.
  - intros p L. eapply pinv_frame; [| |apply Ip; exact L]; reflexivity.
  - unfold rn, ro, eff in *. cbn [prov np xs out knows registering providers]. rewrite OS in Ie.
    replace (fold_left receive (concat match ms with [] => [] | _ :: _ => [ms] end) (receive (knows s) m))
      with (fold_left receive (concat [m :: ms]) (knows s)); [exact Ie|].
    cbn [concat]. rewrite app_nil_r. cbn [fold_left]. destruct ms; [reflexivity|]. cbn [concat]. rewrite app_nil_r. reflexivity.
Qed.

Lemma step_stop pid0 ex h s s' :
  inv pid0 ex h s -> all_sent s -> all_told s true -> step s ProviderStop = Some s' -> inv pid0 ex (ProviderStop :: h) s'.
Proof.
  intros I A T S. unfold step in S. rewrite (i_dead _ _ _ _ I) in S.
  destruct (off s) eqn:OF; [|discriminate]. injection S as <-.
  destruct I as [Id Io In_ Ip Iv Ie].
  constructor; cbn [dead out np xs prov off ent knows]; auto.
  intros p L. pose proof (Ip p L) as P. rewrite OF in P.
  eapply (pinv_world ex h true); [reflexivity|reflexivity| | | |reflexivity|exact P]; auto; try discriminate.
  intros R _. destruct (x_live (xs s p)) eqn:LV.
  - apply (p_avail _ _ _ _ _ _ P LV). apply T; assumption.
  - destruct (p_gone _ _ _ _ _ _ P LV). congruence.
Qed.

Lemma step_start pid0 ex h s pid fresh s' :
  inv pid0 ex h s -> all_sent s -> all_told s false ->
  (fresh = true -> ~ In pid (providers pid0 h)) -> (ex = true -> fresh = true) ->
  step s (ProviderStart pid fresh) = Some s' -> inv pid0 ex (ProviderStart pid fresh :: h) s'.
Proof.
  intros I A T F X S. unfold step in S. rewrite (i_dead _ _ _ _ I) in S.
  destruct (off s) eqn:OF; [discriminate|]. injection S as <-.
  destruct I as [Id Io In_ Ip Iv Ie]. rewrite OF in Ip.
  assert (DOWN : forall p, p < np s -> x_reg (xs s p) = true -> x_pid (xs s p) = prov s).
  { intros p L R. exact (p_down _ _ _ _ _ _ (Ip p L) R eq_refl). }
  assert (RO : ro s = 0) by (apply ro_zero, DOWN).
  assert (PN : ex = true -> pid <> prov s) by (intros EX EQ; subst pid; exact (F (X EX) Iv)).
  constructor; cbn [dead out np xs prov off ent knows providers]; auto.
  - intros p L. pose proof (Ip p L) as P.
    eapply (pinv_world ex h false); [reflexivity|reflexivity| | | |reflexivity|exact P]; try discriminate.
    + intros LV AV. rewrite (T p L LV) in AV. discriminate.
    + intros EX R _ _. rewrite (DOWN p L R). intros EQ. apply (PN EX). symmetry; exact EQ.
  - left. reflexivity.
  - set (s1 := mkS pid true _ (ent s) (np s) (xs s) (out s) false).
    assert (K1 : forall q, In q (providers pid0 h) -> eff s1 q = eff s q).
    { intros q Q. unfold eff. subst s1. cbn [out knows]. unfold all_sent in A. rewrite A. cbn [concat fold_left].
      destruct fresh; [|reflexivity]. destruct (q =? pid)%N eqn:EQ; [|reflexivity].
      apply N.eqb_eq in EQ. subst q. contradiction (F eq_refl). }
    assert (K2 : ex = true -> eff s1 pid = false).
    { intros EX. unfold eff. subst s1. cbn [out knows]. unfold all_sent in A. rewrite A. cbn [concat fold_left].
      rewrite (X EX), N.eqb_refl. reflexivity. }
    assert (C1 : pid <> prov s -> rn s1 = 0).
    { intros NE. unfold rn. subst s1. cbn [prov np xs]. apply countb_zero. intros p L. unfold gn.
      destruct (x_reg (xs s p)) eqn:R; [|reflexivity]. rewrite (DOWN p L R). apply N.eqb_neq. congruence. }
    assert (C2 : pid <> prov s -> ro s1 = rn s).
    { intros NE. unfold rn, ro. subst s1. cbn [prov np xs]. apply countb_ext. intros p L. unfold gn, go.
      destruct (x_reg (xs s p)) eqn:R; [|reflexivity]. rewrite (DOWN p L R), N.eqb_refl. cbn [andb].
      apply negb_true_iff, N.eqb_neq. congruence. }
    cbn [registering]. destruct Ie as [E Q].
    destruct (N.eq_dec pid (prov s)) as [EQ|NE].
    + assert (NX : ex = false) by (destruct ex; [contradiction (PN eq_refl)|reflexivity]). rewrite NX in *.
      split; [|discriminate]. change (ent s1) with (ent s).
      assert (rn s1 = rn s) as -> by (unfold rn; subst s1; cbn [prov np xs]; rewrite EQ; reflexivity).
      assert (ro s1 = ro s) as -> by (unfold ro; subst s1; cbn [prov np xs]; rewrite EQ; reflexivity).
      destruct (ent s) as [[n c]|]; [|exact E].
      destruct E as (C0 & C3 & C4 & C5 & C6 & C7). rewrite (K1 n C5). rewrite EQ.
      split; [exact C0|]. split; [exact C3|]. split; [exact C4|]. split; [right; exact C5|]. split; [exact C6|exact C7].
    + rewrite (C1 NE), (C2 NE). split.
      * change (ent s1) with (ent s). destruct (ent s) as [[n c]|].
        -- destruct E as (C0 & C3 & C4 & C5 & C6 & C7). rewrite (K1 n C5).
           split; [exact C0|]. split; [exact C3|]. split; [exact C4|]. split; [right; exact C5|]. split.
           ++ intros ->. split; [lia|]. intros EX. exfalso. exact (F (X EX) C5).
           ++ intros _. split; [reflexivity|]. intros EX.
              destruct (N.eq_dec n (prov s)) as [N1|N1].
              ** destruct (C6 N1) as [_ C8]. specialize (C8 EX). lia.
              ** destruct (C7 N1) as [_ C8]. specialize (C8 EX). lia.
        -- split; [reflexivity|apply E].
      * intros EX. change (prov s1) with pid. rewrite (K2 EX). discriminate.
Qed.

Lemma step_inv pid0 ex h s o s' :
  inv pid0 ex h s -> room ex h s -> orderly s o ->
  (forall pid, o = ProviderStart pid true -> ~ In pid (providers pid0 h)) ->
  (ex = true -> forall pid fresh, o = ProviderStart pid fresh -> fresh = true) ->
  step s o = Some s' -> inv pid0 ex (o :: h) s'.
Proof.
  intros I RM OK F X S. pose proof S as S0. unfold step in S. rewrite (i_dead _ _ _ _ I) in S.
  destruct o as [|p ok|p|p|p|p|p a|i a| |pid fresh]; cbn [orderly] in OK.
  - eapply step_create; eauto.
  - refine (call_inv pid0 ex h s (Subscribe p ok) p _ s' I RM OK _ _ _ (local_subscribe _ _ _ _ _ _ _) S);
      [discriminate|frames|reflexivity].
  - destruct OK as (A & B & C). refine (call_inv pid0 ex h s _ p _ s' I RM A _ _ _ (local_unsubscribe _ _ _ _ _ _ B) S);
      [auto|frames|reflexivity].
  - destruct OK as (A & B). refine (call_inv pid0 ex h s _ p _ s' I RM A _ _ _ (local_set _ _ _ _ _ _ B) S);
      [discriminate|frames|reflexivity].
  - destruct OK as (A & B & C). refine (call_inv pid0 ex h s _ p _ s' I RM A _ _ _ (local_unset _ _ _ _ _ _ B) S);
      [auto|frames|reflexivity].
  - destruct OK as (A & C). refine (call_inv pid0 ex h s _ p _ s' I RM A _ _ _ (local_destroy _ _ _ _ _ _) S);
      [auto|frames|reflexivity].
  - destruct OK as (A & B & C). refine (call_inv pid0 ex h s _ p _ s' I RM A _ _ _ (local_notify _ _ _ _ _ _ _ B C) S);
      [discriminate|intros q Q; split; reflexivity|reflexivity].
  - subst a. eapply step_deliver; eauto.
  - destruct OK as (A & B). eapply step_stop; eauto.
  - destruct OK as (A & B). eapply step_start; eauto.
    + intros ->. apply F. reflexivity.
Qed.

Lemma init_inv pid0 ex : inv pid0 ex [] (init pid0).
Proof.
  constructor; cbn; auto; try lia.
  split; [split; reflexivity|discriminate].
Qed.

Lemma step_np s o s' : step s o = Some s' -> np s' = match o with Create => S (np s) | _ => np s end.
Proof.
  unfold step. destruct (dead s); [discriminate|].
  assert (P : forall p f, call s p f = Some s' -> np s' = np s).
  { intros p f C. apply call_some in C as (_ & _ & ->). unfold put. destruct (f _ _) as [x [[e ms] ab]]. reflexivity. }
  destruct o; intros S; try solve [eapply P; exact S].
  - injection S as <-. reflexivity.
  - unfold deliver in S. destruct (nth_error _ _) as [[|m ms]|]; try discriminate. injection S as <-. reflexivity.
  - destruct (off s); [|discriminate]. injection S as <-. reflexivity.
  - destruct (off s); [discriminate|]. injection S as <-. reflexivity.
Qed.

Lemma any_inv pid0 h s : reach pid0 (orderly_any pid0) h s -> inv pid0 false h s.
Proof.
  induction 1 as [|h s o s' R I (OK & B & F) S]; [apply init_inv|].
  eapply step_inv; [exact I|exact B|exact OK|exact F|discriminate|exact S].
Qed.

Lemma restarts_inv pid0 h s : reach pid0 (orderly_restarts pid0) h s -> inv pid0 true h s /\ (N.of_nat (np s) <= 65535)%N.
Proof.
  induction 1 as [|h s o s' R [I B] (OK & C & F) S]; [split; [apply init_inv|cbn; lia]|]. split.
  - eapply step_inv; [exact I|exact B|exact OK| | |exact S].
    + intros pid E. apply (F pid true E).
    + intros _ pid fresh E. apply (F pid fresh E).
  - rewrite (step_np _ _ _ S). destruct o; try exact B. specialize (C eq_refl). lia.
Qed.

(** * C81 *)

(** A subscribed proxy with a receive handler, told that the service instance is there: the
    provider's process has this process in its table.
    Missing from the full property: the conditions [orderly_any]. *)
Theorem C81_handler_known_partial : forall pid0 h s p,
  reach pid0 (orderly_any pid0) h s -> all_sent s -> told_available s p ->
  subscribed h p = true -> has_handler h p = true ->
  knows s (prov s) = true.
Proof.
  intros pid0 h s p R A (L & LV & AV) SB HH. apply any_inv in R as I.
  pose proof (i_px _ _ _ _ I p L) as P.
  assert (RG : x_reg (xs s p) = true).
  { pose proof (p_has _ _ _ _ _ _ P LV) as H. rewrite HH in H.
    pose proof (p_sub _ _ _ _ _ _ P) as B. rewrite SB in B.
    destruct (x_st (xs s p)) eqn:ST; [discriminate| |].
    - rewrite (p_pend _ _ _ _ _ _ P ST) in AV. discriminate.
    - destruct (p_subd _ _ _ _ _ _ P ST) as [_ E]. rewrite E in H. symmetry. exact H. }
  pose proof (p_avail _ _ _ _ _ _ P LV AV) as PV.
  assert (0 < rn s) as RN by (apply (rn_pos s p L); unfold gn; rewrite RG, PV, N.eqb_refl; reflexivity).
  pose proof (ent0 _ _ _ _ I A) as [E _]. cbn [fold_left] in E.
  destruct (ent s) as [[n c]|]; [|destruct E; lia].
  destruct E as (_ & _ & K & _ & _ & Q). destruct (N.eq_dec n (prov s)) as [->|NE]; [exact K|].
  destruct (Q NE); lia.
Qed.

(** The provider's process has this process in its table only if some proxy of the process is
    subscribed and has a receive handler.
    Missing from the full property: the conditions [orderly_restarts]. *)
Theorem C81_no_stale_interest_partial : forall pid0 h s,
  reach pid0 (orderly_restarts pid0) h s -> all_sent s ->
  knows s (prov s) = true ->
  exists p, subscribed h p = true /\ has_handler h p = true.
Proof.
  intros pid0 h s R A K. apply restarts_inv in R as [I _].
  pose proof (ent0 _ _ _ _ I A) as [_ Q]. cbn [fold_left] in Q. specialize (Q eq_refl K).
  destruct (Nat.eq_dec (countb (fun p => gn (prov s) (xs s p)) (np s)) 0) as [Z|NZ]; [unfold rn in Q; lia|].
  assert (EX : exists p, p < np s /\ gn (prov s) (xs s p) = true).
  { clear - NZ. induction (np s) as [|n IH]; [contradiction NZ; reflexivity|]. cbn [countb] in NZ.
    destruct (gn (prov s) (xs s n)) eqn:G; [exists n; split; [lia|exact G]|].
    destruct (IH NZ) as (p & L & H). exists p. split; [lia|exact H]. }
  destruct EX as (p & L & G). unfold gn in G. apply andb_true_iff in G as [RG _].
  pose proof (i_px _ _ _ _ I p L) as P. exists p. split.
  - rewrite (p_sub _ _ _ _ _ _ P). destruct (x_st (xs s p)) eqn:ST; auto.
    rewrite (p_not _ _ _ _ _ _ P ST) in RG. discriminate.
  - destruct (x_live (xs s p)) eqn:LV.
    + rewrite (p_has _ _ _ _ _ _ P LV), RG, orb_true_r. reflexivity.
    + destruct (p_gone _ _ _ _ _ _ P LV). congruence.
Qed.

(** No call terminates the process. *)
Theorem C81_never_terminated_partial : forall pid0 h s,
  reach pid0 (orderly_any pid0) h s \/ reach pid0 (orderly_restarts pid0) h s -> dead s = false.
Proof.
  intros pid0 h s [R|R]; [apply any_inv in R|apply restarts_inv in R as [R _]]; exact (i_dead _ _ _ _ R).
Qed.

(** * Non-vacuity and what happens outside the conditions *)

Definition anything (h : list op) (s : st) (o : op) : Prop := True.

(** Checking the conditions by computation. *)
Definition all_sent_b (s : st) : bool := match out s with [] => true | _ => false end.
Definition all_told_b (s : st) (a : bool) : bool :=
  forallb (fun p => negb (x_live (xs s p)) || Bool.eqb (x_avail (xs s p)) a) (seq 0 (np s)).
Definition settled_b (s : st) : bool :=
  negb (off s) || forallb (fun p => negb (x_reg (xs s p)) || (x_pid (xs s p) =? prov s)%N) (seq 0 (np s)).
Definition is_pend (x : px) : bool := match x_st x with Pend => true | _ => false end.
Definition orderly_b (s : st) (o : op) : bool :=
  match o with
  | Deliver i arrives => arrives
  | Create | Subscribe _ _ => all_sent_b s
  | SetHandler p => all_sent_b s && (negb (is_pend (xs s p)) || negb (x_reg (xs s p)))
  | UnsetHandler p => all_sent_b s && (negb (is_pend (xs s p)) || negb (x_reg (xs s p))) && settled_b s
  | Unsubscribe p => all_sent_b s && (negb (is_pend (xs s p)) || negb (x_stored (xs s p))) && settled_b s
  | Destroy p => all_sent_b s && settled_b s
  | Notify p a => all_sent_b s && Bool.eqb a (off s) && (a || x_avail (xs s p))
  | ProviderStop => all_sent_b s && all_told_b s true
  | ProviderStart _ _ => all_sent_b s && all_told_b s false
  end.

Lemma all_sent_ok s : all_sent_b s = true -> all_sent s.
Proof. unfold all_sent_b, all_sent. destruct (out s); [reflexivity|discriminate]. Qed.
Lemma all_told_ok s a : all_told_b s a = true -> all_told s a.
Proof.
  unfold all_told_b, all_told. rewrite forallb_forall. intros H p L LV.
  assert (IN : In p (seq 0 (np s))) by (apply in_seq; lia). specialize (H p IN). rewrite LV in H. apply Bool.eqb_prop in H. exact H.
Qed.
Lemma settled_ok s : settled_b s = true -> settled s.
Proof.
  unfold settled_b, settled. intros H O p L R. rewrite O in H. cbn [negb orb] in H. rewrite forallb_forall in H.
  assert (IN : In p (seq 0 (np s))) by (apply in_seq; lia). specialize (H p IN). rewrite R in H. apply N.eqb_eq in H. exact H.
Qed.
Lemma pend_ok x b : negb (is_pend x) || negb b = true -> x_st x = Pend -> b = false.
Proof. unfold is_pend. intros H E. rewrite E in H. cbn in H. destruct b; [discriminate|reflexivity]. Qed.
Lemma orderly_ok s o : orderly_b s o = true -> orderly s o.
Proof.
  destruct o; cbn [orderly_b orderly]; rewrite ?andb_true_iff; intros H;
    repeat match goal with H : _ /\ _ |- _ => destruct H end;
    repeat match goal with |- _ /\ _ => split end;
    try solve [apply pend_ok; assumption]; auto using all_sent_ok, all_told_ok, settled_ok, Bool.eqb_prop.
  intros ->. assumption.
Qed.

Definition start_pid (o : op) : option (N * bool) := match o with ProviderStart pid f => Some (pid, f) | _ => None end.
Definition unused (pid0 : N) (h : list op) (pid : N) : bool := negb (existsb (N.eqb pid) (providers pid0 h)).
Lemma unused_ok pid0 h pid : unused pid0 h pid = true -> ~ In pid (providers pid0 h).
Proof.
  unfold unused. rewrite negb_true_iff. intros H IN.
  assert (existsb (N.eqb pid) (providers pid0 h) = true) as T; [|congruence].
  apply existsb_exists. exists pid. split; [exact IN|apply N.eqb_refl].
Qed.
Definition any_b (pid0 : N) (h : list op) (s : st) (o : op) : bool :=
  orderly_b s o && (N.of_nat (registering h) <? 65535)%N
  && match start_pid o with Some (pid, true) => unused pid0 h pid | _ => true end.
Definition restarts_b (pid0 : N) (h : list op) (s : st) (o : op) : bool :=
  orderly_b s o && (N.of_nat (np s) <? 65535)%N
  && match start_pid o with Some (pid, f) => f && unused pid0 h pid | None => true end.
Lemma any_ok pid0 h s o : any_b pid0 h s o = true -> orderly_any pid0 h s o.
Proof.
  unfold any_b. rewrite !andb_true_iff. intros [[A B] C]. split; [apply orderly_ok, A|]. split; [apply N.ltb_lt, B|].
  intros pid ->. cbn in C. apply unused_ok, C.
Qed.
Lemma restarts_ok pid0 h s o : restarts_b pid0 h s o = true -> orderly_restarts pid0 h s o.
Proof.
  unfold restarts_b. rewrite !andb_true_iff. intros [[A B] C]. split; [apply orderly_ok, A|].
  split; [intros _; apply N.ltb_lt, B|].
  intros pid f ->. cbn in C. apply andb_true_iff in C as [C D]. split; [exact C|apply unused_ok, D].
Qed.

Fixpoint run_if (okb : list op -> st -> op -> bool) (s : st) (h : list op) (l : list op) : option (list op * st) :=
  match l with
  | [] => Some (h, s)
  | o :: l => if okb h s o then match step s o with Some s' => run_if okb s' (o :: h) l | None => None end else None
  end.
Lemma run_if_reach pid0 (ok : list op -> st -> op -> Prop) okb s h l h' s' :
  (forall h s o, okb h s o = true -> ok h s o) ->
  reach pid0 ok h s -> run_if okb s h l = Some (h', s') -> reach pid0 ok h' s'.
Proof.
  intros OK. revert s h. induction l as [|o l IH]; cbn [run_if]; intros s h R E; [injection E as <- <-; exact R|].
  destruct (okb h s o) eqn:B; [|discriminate]. destruct (step s o) as [s1|] eqn:S; [|discriminate].
  eapply IH; [|exact E]. eapply reach_step; [exact R|apply OK, B|exact S].
Qed.
Definition final (okb : list op -> st -> op -> bool) (l : list op) : list op * st :=
  match run_if okb (init 7) [] l with Some r => r | None => ([], init 7) end.
Lemma final_reach (ok : list op -> st -> op -> Prop) okb l :
  (forall h s o, okb h s o = true -> ok h s o) -> reach 7 ok (fst (final okb l)) (snd (final okb l)).
Proof.
  intros OK. unfold final. destruct (run_if okb (init 7) [] l) as [[h s]|] eqn:E; [|apply reach_init].
  eapply run_if_reach; [exact OK|apply reach_init|exact E].
Qed.
Definition free (h : list op) (s : st) (o : op) : bool := true.
Lemma free_ok h s o : free h s o = true -> anything h s o.
Proof. intros _. exact Logic.I. Qed.

(** Two proxies with handlers; the provider (process 7) is restarted as process 8. *)
Definition two_proxies : list op :=
  [Create; Create; SetHandler 0; Subscribe 0 true; Deliver 0 true; Subscribe 1 true; SetHandler 1].
Definition restart : list op := [ProviderStop; Notify 0 false; Notify 1 false; ProviderStart 8 true].


Definition after_restart : list op := two_proxies ++ restart ++ [Notify 1 true; Deliver 0 true; Notify 0 true].

Example two_proxies_restarted_any :
  reach 7 (orderly_any 7) (fst (final (any_b 7) after_restart)) (snd (final (any_b 7) after_restart)).
Proof. apply final_reach, any_ok. Qed.
Example two_proxies_restarted :
  let h := fst (final (restarts_b 7) after_restart) in let s := snd (final (restarts_b 7) after_restart) in
  reach 7 (orderly_restarts 7) h s /\ h = rev after_restart /\ final (any_b 7) after_restart = (h, s)
    /\ all_sent s /\ told_available s 0 /\ told_available s 1
    /\ subscribed h 0 = true /\ has_handler h 0 = true /\ subscribed h 1 = true /\ has_handler h 1 = true
    /\ prov s = 8%N /\ knows s 8 = true.
Proof.
  split; [apply final_reach, restarts_ok|].
  vm_compute. repeat split; auto.
Qed.

(** The full property: in every history, when nothing is under way, … *)
Definition quiescent (s : st) : Prop := all_sent s /\ off s = true /\ all_told s true.

Definition lost_handler (l : list op) (p : nat) : Prop :=
  let h := fst (final free l) in let s := snd (final free l) in
  h = rev l /\ quiescent s /\ told_available s p /\ subscribed h p = true /\ has_handler h p = true
  /\ knows s (prov s) = false.

Lemma all_told_2 s a : np s = 2 ->
  (x_live (xs s 0) = true -> x_avail (xs s 0) = a) -> (x_live (xs s 1) = true -> x_avail (xs s 1) = a) -> all_told s a.
Proof. intros N A B p L. rewrite N in L. destruct p as [|[|p]]; [exact A|exact B|lia]. Qed.
Lemma all_told_1 s a : np s = 1 -> (x_live (xs s 0) = true -> x_avail (xs s 0) = a) -> all_told s a.
Proof. intros N A p L. rewrite N in L. destruct p as [|p]; [exact A|lia]. Qed.

Ltac by_lost := unfold lost_handler, quiescent, told_available;
  split; [vm_compute; reflexivity|];
  split; [split; [vm_compute; reflexivity|split; [vm_compute; reflexivity|
     first [apply all_told_2; [vm_compute; reflexivity|vm_compute; auto|vm_compute; auto]
           |apply all_told_1; [vm_compute; reflexivity|vm_compute; auto]]]]|];
  split; [split; [vm_compute; auto|split; vm_compute; reflexivity]|];
  repeat split; vm_compute; reflexivity.

(** A handler replaced while the provider is away: two proxies have handlers, the provider is
    restarted, proxy 1 is told, proxy 0's handler is replaced before it is told.  Proxy 0's
    re-registration takes proxy 1's registration away, and when proxy 0 later removes its handler
    the new provider forgets the process although proxy 1 still has a handler. *)
Theorem C81_replaced_while_pending_refuted :
  exists l, lost_handler l 1 /\ forall i a, ~ In (Deliver i a) l \/ a = true.
Proof.
  exists (two_proxies ++ restart ++
     [Notify 1 true; Deliver 0 true; SetHandler 0; Notify 0 true; Deliver 0 true; Deliver 0 true; UnsetHandler 0; Deliver 0 true]).
  split; [by_lost|].
  intros i a. destruct a; [right; reflexivity|]. left. cbn. intuition discriminate.
Qed.

(** Giving up a handler before all proxies have been told of the new provider: proxy 1 is told
    first and removes its handler; proxy 0's re-registration then finds no entry and is skipped. *)
Theorem C81_removed_before_all_told_refuted :
  exists l, lost_handler l 0 /\ forall i a, ~ In (Deliver i a) l \/ a = true.
Proof.
  exists (two_proxies ++ restart ++
     [Notify 1 true; Deliver 0 true; UnsetHandler 1; Deliver 0 true; Notify 0 true]).
  split; [by_lost|].
  intros i a. destruct a; [right; reflexivity|]. left. cbn. intuition discriminate.
Qed.

(** A register message that cannot be sent is not repeated, not even when further handlers are set. *)
Theorem C81_message_lost_refuted :
  exists l, lost_handler l 0 /\ lost_handler l 1.
Proof.
  exists [Create; Create; Subscribe 0 true; SetHandler 0; Deliver 0 false; Subscribe 1 true; SetHandler 1].
  split; by_lost.
Qed.

(** Overlapping calls: proxy 0 removes its handler while proxy 1 sets one; the unregister message
    of the first call is sent after the register message of the second. *)
Theorem C81_overlapping_calls_refuted :
  exists l, lost_handler l 1 /\ forall i a, ~ In (Deliver i a) l \/ a = true.
Proof.
  exists [Create; Create; Subscribe 0 true; SetHandler 0; Deliver 0 true; Subscribe 1 true;
          UnsetHandler 0; SetHandler 1; Deliver 1 true; Deliver 0 true].
  split; [by_lost|].
  intros i a. destruct a; [right; reflexivity|]. left. cbn. intuition discriminate.
Qed.

(** A restart that service discovery reports only as "still there": the proxy stays registered
    with the old process. *)
Theorem C81_missed_restart_refuted :
  exists l, lost_handler l 0 /\ forall i a, ~ In (Deliver i a) l \/ a = true.
Proof.
  exists [Create; Subscribe 0 true; SetHandler 0; Deliver 0 true; ProviderStop; ProviderStart 8 true; Notify 0 true].
  split; [by_lost|].
  intros i a. destruct a; [right; reflexivity|]. left. cbn. intuition discriminate.
Qed.

(** A new provider process that happens to get the pid of the old one is never told. *)
Theorem C81_same_pid_refuted :
  exists l, lost_handler l 0 /\ forall i a, ~ In (Deliver i a) l \/ a = true.
Proof.
  exists [Create; Subscribe 0 true; SetHandler 0; Deliver 0 true; ProviderStop; Notify 0 false; ProviderStart 7 true; Notify 0 true].
  split; [by_lost|].
  intros i a. destruct a; [right; reflexivity|]. left. cbn. intuition discriminate.
Qed.

(** The same process stops offering and offers again: the registration is counted twice, and the
    provider goes on notifying the process after its last handler has been removed and its last
    proxy destroyed.  All conditions but "every provider is a new process" hold. *)
Definition reoffered : list op :=
  [Create; Subscribe 0 true; SetHandler 0; Deliver 0 true; ProviderStop; Notify 0 false; ProviderStart 7 false;
   Notify 0 true; UnsetHandler 0; Destroy 0].
Theorem C81_stale_interest_refuted :
  exists h s, reach 7 (orderly_any 7) h s /\ quiescent s /\ h = rev reoffered
    /\ (forall p, subscribed h p = false /\ has_handler h p = false) /\ knows s (prov s) = true.
Proof.
  exists (fst (final (any_b 7) reoffered)), (snd (final (any_b 7) reoffered)).
  split; [apply final_reach, any_ok|].
  split; [split; [vm_compute; reflexivity|split; [vm_compute; reflexivity|]]|].
  - apply all_told_1; [vm_compute; reflexivity|vm_compute; auto].
  - assert (E : fst (final (any_b 7) reoffered) = rev reoffered) by (vm_compute; reflexivity). rewrite E.
    split; [reflexivity|]. split; [|vm_compute; reflexivity].
    intros p. cbn. destruct p; split; reflexivity.
Qed.

(** A handler removed while the provider is away is registered with the new provider. *)
Theorem C81_unset_while_pending_refuted :
  exists h s, reach 7 anything h s /\ quiescent s
    /\ (forall p, has_handler h p = false) /\ knows s (prov s) = true.
Proof.
  set (l := [Create; Subscribe 0 true; SetHandler 0; Deliver 0 true; ProviderStop; Notify 0 false; UnsetHandler 0;
             ProviderStart 8 true; Notify 0 true; Deliver 0 true]).
  exists (fst (final free l)), (snd (final free l)).
  split; [apply final_reach, free_ok|].
  split; [split; [vm_compute; reflexivity|split; [vm_compute; reflexivity|]]|].
  - apply all_told_1; [vm_compute; reflexivity|vm_compute; auto].
  - assert (E : fst (final free l) = rev l) by (vm_compute; reflexivity). rewrite E.
    split; [|vm_compute; reflexivity]. intros p. cbn. destruct p; reflexivity.
Qed.

(** ** 65536 re-offers by the same process: removing the handler terminates the consumer. *)
Definition one_px : px := mkX true Subd true 7 false true true.
Definition cycle : list op := [ProviderStop; Notify 0 false; ProviderStart 7 false; Notify 0 true].
(** one subscribed proxy with a handler, counted [c] times *)
Record like (c : N) (s : st) : Prop := LK {
  l_prov : prov s = 7%N; l_off : off s = true; l_ent : ent s = Some (7%N, c); l_np : np s = 1;
  l_px : xs s 0 = one_px; l_out : out s = []; l_dead : dead s = false }.

Lemma run_if_app okb l1 l2 s h : run_if okb s h (l1 ++ l2) =
  match run_if okb s h l1 with Some (h', s') => run_if okb s' h' l2 | None => None end.
Proof.
  revert s h. induction l1 as [|o l1 IH]; intros s h; cbn [app run_if]; [reflexivity|].
  destruct (okb h s o); [|reflexivity]. destruct (step s o); [apply IH|reflexivity].
Qed.

Lemma cycle_like c s h : like c s ->
  exists s', run_if free s h cycle = Some (rev cycle ++ h, s') /\ like ((c + 1) mod 65536)%N s'.
Proof.
  intros [A B C D E F G]. destruct s as [pv of kn en n x o d]. cbn in *. subst.
  unfold cycle. cbn. unfold call. cbn. rewrite E. cbn. unfold step, call. cbn. eexists. split; [reflexivity|]. constructor; reflexivity.
Qed.

Fixpoint cycles (n : nat) : list op := match n with O => [] | S k => cycle ++ cycles k end.
Lemma cycles_like n : forall c s h, like c s -> (c < 65536)%N ->
  exists h' s', run_if free s h (cycles n) = Some (h', s') /\ like ((c + N.of_nat n) mod 65536)%N s'.
Proof.
  induction n as [|n IH]; intros c s h K B.
  - exists h, s. split; [reflexivity|]. cbn. rewrite N.add_0_r, N.mod_small by exact B. exact K.
  - destruct (cycle_like c s h K) as (s1 & R1 & K1).
    destruct (IH _ s1 (rev cycle ++ h) K1) as (h' & s' & R2 & K2); [apply N.mod_lt; discriminate|].
    exists h', s'. split.
    + change (cycles (S n)) with (cycle ++ cycles n). rewrite run_if_app, R1. exact R2.
    + rewrite N.add_mod_idemp_l in K2 by discriminate.
      replace (c + N.of_nat (S n))%N with (c + 1 + N.of_nat n)%N by lia. exact K2.
Qed.

Lemma some_nat (k : N) : exists n, N.of_nat n = k.
Proof. exists (N.to_nat k). apply N2Nat.id. Qed.

(** After 65535 further offers by the same process the count is 0 again; UnsetReceiveHandler fails
    its assertion and terminates the consumer's process. *)
Theorem C81_many_reoffers_refuted :
  exists h s, reach 7 anything h s /\ dead s = true
    /\ exists n, N.of_nat n = 65535%N /\ rev h = [Create; Subscribe 0 true; SetHandler 0; Deliver 0 true] ++ cycles n ++ [UnsetHandler 0].
Proof.
  destruct (some_nat 65535) as [n HN].
  set (pre := [Create; Subscribe 0 true; SetHandler 0; Deliver 0 true]).
  assert (P : exists h1 s1, run_if free (init 7) [] pre = Some (h1, s1) /\ like 1 s1).
  { eexists _, _. split; [vm_compute; reflexivity|]. constructor; reflexivity. }
  destruct P as (h1 & s1 & R1 & K1).
  destruct (cycles_like n 1 s1 h1 K1 ltac:(lia)) as (h2 & s2 & R2 & K2).
  replace ((1 + N.of_nat n) mod 65536)%N with 0%N in K2 by (rewrite HN; reflexivity).
  assert (S3 : exists s3, step s2 (UnsetHandler 0) = Some s3 /\ dead s3 = true).
  { destruct K2 as [A B C D E F G]. unfold step, call. rewrite G, D, E. cbn [Nat.ltb Nat.leb x_live one_px andb].
    eexists. split; [reflexivity|]. rewrite C. reflexivity. }
  destruct S3 as (s3 & S3 & D3).
  assert (R : run_if free (init 7) [] (pre ++ cycles n ++ [UnsetHandler 0]) = Some (UnsetHandler 0 :: h2, s3)).
  { rewrite run_if_app, R1, run_if_app, R2. cbn [run_if free]. rewrite S3. reflexivity. }
  exists (UnsetHandler 0 :: h2), s3. split; [eapply run_if_reach; [exact free_ok|apply reach_init|exact R]|].
  split; [exact D3|]. exists n. split; [exact HN|].
  assert (H : forall l s h h' s', run_if free s h l = Some (h', s') -> rev h' = rev h ++ l).
  { induction l as [|o l IH]; cbn [run_if]; intros s h h' s' E.
    - injection E as <- <-. rewrite app_nil_r. reflexivity.
    - cbn [free] in E. destruct (step s o); [|discriminate]. apply IH in E. rewrite E. cbn [rev]. rewrite <- app_assoc. reflexivity. }
  apply H in R. exact R.
Qed.

Print Assumptions C81_handler_known_partial.
Print Assumptions C81_no_stale_interest_partial.
Print Assumptions C81_never_terminated_partial.
Print Assumptions C81_many_reoffers_refuted.
