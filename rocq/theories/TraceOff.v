(** When tracing is switched off because of failing trace calls (C102). *)
From Coq Require Import List Arith Bool Lia NArith.
From Verif Require Import Base TraceModel TraceProps.
Import ListNotations.

(** * Specification *)

(** The tracer's answer that is evaluated in a step, if any *)
Definition answered (s : st) (l : label) : option tres :=
  match l with
  | Finish e => match pc s e with Fin _ t => Some t | _ => None end
  | LFinish t => match lpc s t with LFin r => Some r | _ => None end
  | _ => None
  end.

(** Histories of the process with the answers evaluated so far, newest first *)
Inductive history (c : cfg) : list tres -> st -> Prop :=
| h_init : history c [] init
| h_step l as_ s s' : history c as_ s -> step c s l = Some s' ->
    history c (match answered s l with Some t => t :: as_ | None => as_ end) s'.

(** The number of failures since a call was last accepted *)
Fixpoint in_a_row (l : list tres) : N :=
  match l with
  | [] => 0
  | TOk :: _ => 0
  | TTerminal :: r => in_a_row r
  | _ :: r => 1 + in_a_row r
  end.

(** The number of failures in a row that is too many: the largest 32-bit number *)
Definition too_many : N := (2 ^ 32 - 1)%N.

(** Everything else that may switch tracing off: a call of DisableTracing, a fatal answer to registering
    or unregistering the memory, a failed roll-back of a predecessor's transactions *)
Definition other_cause (l : label) : Prop :=
  match l with
  | Disable => True
  | Offer _ r bad _ => r = RTerminal \/ exists e, bad e = true
  | Stop _ t => t = true
  | Send _ _ r => r = RTerminal
  | _ => False
  end.

(** * Proofs *)

Lemma off_fails s : fails (off s) = fails s.
Proof. unfold off. destruct (enabled s); reflexivity. Qed.
Lemma off_off s : enabled (off s) = false.
Proof. unfold off. destruct (enabled s) eqn:E; [reflexivity|exact E]. Qed.

(** Neither the count nor, unless [P], the switch changes *)
Definition quiet (P : Prop) (s s' : st) : Prop :=
  fails s' = fails s /\ (enabled s' = true -> enabled s = true) /\ (enabled s = true -> enabled s' = false -> P).
Lemma quiet_same P s s' : fails s' = fails s -> enabled s' = enabled s -> quiet P s s'.
Proof. intros A B. repeat split; congruence. Qed.
Lemma quiet_trans P a b d : quiet P a b -> quiet P b d -> quiet P a d.
Proof.
  intros (A1 & A2 & A3) (B1 & B2 & B3). repeat split; [congruence|auto|].
  intros E F. destruct (enabled b) eqn:G; auto.
Qed.
Lemma quiet_off (P : Prop) s : P -> quiet P s (off s).
Proof. intros H. split; [apply off_fails|]. rewrite off_off. split; [discriminate|auto]. Qed.
Lemma quiet_each {A} P (f : A -> st -> st) l s : (forall x z, quiet P z (f x z)) -> quiet P s (each f l s).
Proof.
  intros H. revert s. induction l as [|x l IH]; intros s; cbn; [apply quiet_same; reflexivity|].
  destruct (down (f x s)); [apply H|]. eapply quiet_trans; [apply H|apply IH].
Qed.
Ltac same := apply quiet_same; reflexivity.

Lemma quiet_register (P : Prop) i n r s : (r = RTerminal -> P) -> quiet P s (register i n r s).
Proof.
  intros H. unfold register. destruct (enabled s); [|same]. destruct r; proj; try same.
  - destruct (hmap s i); same.
  - destruct (cmap s i); same.
  - eapply quiet_trans; [|apply quiet_off; auto]. same.
Qed.
Lemma quiet_unregister (P : Prop) i t s : (t = true -> P) -> quiet P s (unregister i t s).
Proof.
  intros H. unfold unregister. destruct (enabled s); [|same]. destruct (hmap s i); [|same].
  destruct t; [|same]. eapply quiet_trans; [|apply quiet_off; auto]. same.
Qed.
Lemma quiet_prepare (P : Prop) c bad e s : (bad e = true -> P) -> quiet P s (prepare c bad e s).
Proof.
  intros H. unfold prepare. destruct (bad e && negb (has_rt c)); [same|]. cbv zeta.
  apply (quiet_trans P s (if bad e then off s else s)).
  - destruct (bad e); [apply quiet_off; auto|same].
  - destruct (has_rt c && enabled (if bad e then off s else s)); same.
Qed.
Lemma quiet_unprepare P e s : quiet P s (unprepare e s).
Proof. unfold unprepare. destruct (guard s e); same. Qed.
Lemma quiet_offer c o r bad ok s : quiet (other_cause (Offer o r bad ok)) s (offer c o r bad ok s).
Proof.
  unfold offer. cbv zeta.
  set (s1 := if any_point c o s then register (inst c o) (noffers s) r (next_offer o s) else next_offer o s).
  assert (Q : quiet (other_cause (Offer o r bad ok)) s s1).
  { unfold s1. eapply quiet_trans; [apply (quiet_same _ s (next_offer o s)); reflexivity|].
    destruct (any_point c o s); [apply quiet_register; cbn; auto|same]. }
  clearbody s1. destruct (down s1); [exact Q|].
  eapply quiet_trans; [exact Q|]. clear Q.
  set (s2 := each (prepare c bad) (members c o) s1).
  assert (Q : quiet (other_cause (Offer o r bad ok)) s1 s2).
  { apply quiet_each. intros e z. apply quiet_prepare. cbn. eauto. }
  clearbody s2. destruct (down s2); [exact Q|]. eapply quiet_trans; [exact Q|].
  destruct ok; [same|].
  eapply quiet_trans; [apply (quiet_each _ unprepare (members c o)); intros; apply quiet_unprepare|same].
Qed.
Lemma quiet_stop c o t s : quiet (t = true) s (stop c o t s).
Proof.
  unfold stop. cbv zeta. set (s1 := each unprepare (members c o) s).
  assert (Q : quiet (t = true) s s1) by (apply quiet_each; intros; apply quiet_unprepare).
  clearbody s1. eapply quiet_trans; [exact Q|].
  eapply quiet_trans; [|apply (quiet_same _ (if any_point c o s1 then unregister (inst c o) t s1 else s1)); reflexivity].
  destruct (any_point c o s1); [apply quiet_unregister; auto|same].
Qed.
Lemma quiet_point P e a s : quiet P s (point_off e a s).
Proof. unfold point_off. destruct a; same. Qed.
Lemma quiet_send c e a r s : quiet (r = RTerminal) s (send c e a r s).
Proof.
  unfold send. cbv zeta. destruct (if a then pa s e else ps s e); [|same]. destruct (tlog s e); [|same].
  destruct (enabled s) eqn:E; [|same]. destruct (hmap s (inst c (fst e))); [same|].
  destruct (if dummy c e then cmap s (inst c (fst e)) else None) as [n|]; [|apply quiet_point].
  destruct r; try (eapply quiet_trans; [|apply quiet_point]; same); [same|].
  eapply quiet_trans; [|apply (quiet_same _ (off (note (ERetry n) s))); reflexivity].
  eapply quiet_trans; [|apply quiet_off; reflexivity]. same.
Qed.

Lemma quiet_step c s l s' : step c s l = Some s' -> answered s l = None -> quiet (other_cause l) s s'.
Proof.
  unfold step. destruct (down s); [discriminate|]. destruct l; cbn [answered]; intros S A.
  - destruct (created s o); [discriminate|]. injection S as <-.
    eapply quiet_trans; [|apply (quiet_same _ (each (new_element c) (members c o) s)); reflexivity].
    apply quiet_each. intros e z. unfold new_element. destruct (has_rt c && enabled z); [|same].
    destruct (fs c e || fa c e); [|same]. destruct (slots c e =? 0); [same|].
    destruct (total c <=? nxt z + slots c e - 1); same.
  - destruct (created s o && negb (offered s o)); [|discriminate]. injection S as <-. apply quiet_offer.
  - destruct (offered s o && forallb (idle s) (members c o)); [|discriminate]. injection S as <-. apply quiet_stop.
  - destruct (_ && _ && _); [|discriminate]. injection S as <-. apply quiet_send.
  - unfold emplace in S. destruct (pc s e); try discriminate.
    destruct (nxt s <=? fst (rng s e)); [injection S as <-; same|].
    destruct (first_free _ _ _); injection S as <-; same.
  - unfold call in S. destruct (pc s e); try discriminate. destruct t; injection S as <-; same.
  - unfold finish in S. destruct (pc s e); discriminate.
  - destruct (has_rt c); [|discriminate]. unfold lsend in S. destruct (lpc s t); try discriminate.
    injection S as <-. destruct (enabled s) eqn:E; [|same]. apply quiet_same; [reflexivity|exact E || reflexivity].
  - unfold lcall in S. destruct (lpc s t); try discriminate. destruct r; injection S as <-; same.
  - unfold lfinish in S. destruct (lpc s t); discriminate.
  - unfold done in S. destruct (find_trace k (out s)); [|discriminate]. injection S as <-. same.
  - destruct (has_rt c); [|discriminate]. injection S as <-. apply quiet_off. exact I.
Qed.

(** What evaluating the answer [t] does *)
Definition evaluated (t : tres) (s s' : st) : Prop :=
  fails s' = match t with TOk => 0 | TTerminal => fails s | _ => fails s + 1 end%N /\
  enabled s' = enabled s && match t with
    | TOk => true | TTerminal => false | _ => negb (too_many <=? fails s + 1)%N end.
Lemma process_evaluated t s : evaluated t s (fst (process t s)).
Proof.
  change max_failures with too_many in *. unfold process, evaluated. change max_failures with too_many.
  destruct t; proj.
  - split; [reflexivity|]. cbn. rewrite andb_true_r. reflexivity.
  - destruct (too_many <=? fails s + 1)%N; cbn [fst negb].
    + rewrite off_fails, off_off, andb_false_r. split; reflexivity.
    + rewrite andb_true_r. split; reflexivity.
  - destruct (too_many <=? fails s + 1)%N; cbn [fst negb].
    + rewrite off_fails, off_off, andb_false_r. split; reflexivity.
    + rewrite andb_true_r. split; reflexivity.
  - cbn [fst]. rewrite off_fails, off_off, andb_false_r. split; reflexivity.
Qed.
Lemma evaluated_after t s0 s s' s'' : evaluated t s s' ->
  fails s = fails s0 -> enabled s = enabled s0 -> fails s'' = fails s' -> enabled s'' = enabled s' -> evaluated t s0 s''.
Proof. intros [A B] H1 H2 H3 H4. unfold evaluated in *. rewrite H3, H4, <- H1, <- H2. split; assumption. Qed.
Lemma answer_step c s l s' t : step c s l = Some s' -> answered s l = Some t -> evaluated t s s'.
Proof.
  unfold step. destruct (down s); [discriminate|]. destruct l; cbn [answered]; intros S A; try discriminate.
  - unfold finish in S. destruct (pc s e) as [| | |a u] eqn:P; try discriminate. injection A as ->.
    pose proof (process_evaluated t (end_ (inl e) (go e Idle s))) as Q.
    destruct (process t (end_ (inl e) (go e Idle s))) as [s1 v]. cbn [fst] in Q. injection S as <-.
    apply (evaluated_after t s _ s1 _ Q); try reflexivity; destruct v; try reflexivity;
      unfold point_off; destruct a; reflexivity.
  - unfold lfinish in S. destruct (lpc s t0) as [| |u] eqn:P; try discriminate. injection A as ->. injection S as <-.
    apply (evaluated_after t s _ _ _ (process_evaluated t (end_ (inr t0) (lgo t0 LIdle s)))); reflexivity.
Qed.

Lemma counted c as_ s : history c as_ s -> fails s = in_a_row as_ /\
  (enabled s = true -> (in_a_row as_ < too_many)%N /\ ~ In TTerminal as_).
Proof.
  induction 1 as [|l as_ s s' H [IH1 IH2] S]; [split; [reflexivity|intros _; split; [reflexivity|intros []]]|].
  destruct (answered s l) as [t|] eqn:A.
  - destruct (answer_step _ _ _ _ _ S A) as [F E]. split.
    + rewrite F. destruct t; cbn [in_a_row]; lia.
    + rewrite E, andb_true_iff. intros [En G]. destruct (IH2 En) as [B N]. rewrite IH1 in G.
      destruct t; cbn [in_a_row]; try discriminate.
      * split; [reflexivity|]. intros [X|X]; [discriminate|auto].
      * apply negb_true_iff, N.leb_gt in G. split; [lia|]. intros [X|X]; [discriminate|auto].
      * apply negb_true_iff, N.leb_gt in G. split; [lia|]. intros [X|X]; [discriminate|auto].
  - destruct (quiet_step _ _ _ _ S A) as (F & En & _). split; [congruence|]. auto.
Qed.

(** * C102 *)

(** As long as tracing is on, no answer was fatal, and there were fewer than 2^32-1 failures in a row. *)
Theorem C102_on c as_ s : history c as_ s -> enabled s = true -> (in_a_row as_ < 2 ^ 32 - 1)%N /\ ~ In TTerminal as_.
Proof. intros H. apply (counted c as_ s H). Qed.

(** An answer leaves tracing on exactly if the call was accepted, or the answer is not fatal and there
    are still fewer than 2^32-1 failures in a row. *)
Theorem C102_answer c as_ s l s' t : history c as_ s -> enabled s = true -> step c s l = Some s' -> answered s l = Some t ->
  (enabled s' = true <-> t <> TTerminal /\ (in_a_row (t :: as_) < 2 ^ 32 - 1)%N).
Proof.
  intros H En S A. destruct (counted c as_ s H) as [F _]. destruct (answer_step _ _ _ _ _ S A) as [_ E].
  change (2 ^ 32 - 1)%N with too_many.
  rewrite E, En, F. cbn [andb]. destruct t; cbn [in_a_row].
  - split; [|auto]. intros _. split; [discriminate|reflexivity].
  - rewrite negb_true_iff, N.leb_gt, N.add_comm. split; [intros; split; [discriminate|assumption]|tauto].
  - rewrite negb_true_iff, N.leb_gt, N.add_comm. split; [intros; split; [discriminate|assumption]|tauto].
  - split; [discriminate|tauto].
Qed.

(** Nothing but such an answer, a fatal answer to a registration, a failed roll-back or DisableTracing
    switches tracing off, and nothing switches it on again. *)
Theorem C102_other c as_ s l s' : history c as_ s -> step c s l = Some s' -> answered s l = None ->
  (enabled s = true -> enabled s' = false -> other_cause l) /\ (enabled s = false -> enabled s' = false).
Proof.
  intros H S A. destruct (quiet_step _ _ _ _ S A) as (_ & B & D). split; [exact D|].
  intros E. destruct (enabled s'); [rewrite B in E; auto|reflexivity].
Qed.

(** The trace point of a refused sample: a recoverable failure keeps it, a non-recoverable one switches
    off only the point of the kind that was sent, and switching tracing off switches off both. *)
Theorem C102_points c as_ s e a t s' : history c as_ s -> pc s e = Fin a t -> step c s (Finish e) = Some s' ->
  (forall x, x <> e -> ps s' x = ps s x /\ pa s' x = pa s x) /\
  (ps s' e, pa s' e) =
    match t with
    | TOk => (ps s e, pa s e)
    | TTerminal => (false, false)
    | _ => if (in_a_row (t :: as_) <? 2 ^ 32 - 1)%N then
             match t with
             | TFinal => if a then (ps s e, false) else (false, pa s e)
             | _ => (ps s e, pa s e)
             end
           else (false, false)
    end.
Proof.
  intros H P S. destruct (counted c as_ s H) as [F _]. unfold step in S. destruct (down s); [discriminate|].
  unfold finish in S. rewrite P in S. change (2 ^ 32 - 1)%N with too_many.
  assert (O : forall z, ps (off z) = ps z /\ pa (off z) = pa z) by (intros z; unfold off; destruct (enabled z); auto).
  unfold process in S. change max_failures with too_many in S. rewrite N.ltb_antisym.
  destruct t; cbn [in_a_row]; rewrite <- ?F, ?(N.add_comm 1 (fails s)); revert S; proj;
    try (destruct (too_many <=? fails s + 1)%N; cbn [negb]); intros [= <-]; unfold points_off, point_off; try destruct a.
  all: split; [intros x Hx; proj; rewrite ?eupd_neq by exact Hx | proj; rewrite ?eupd_eq];
    rewrite ?(proj1 (O _)), ?(proj2 (O _)); proj; try split; reflexivity.
Qed.

(** * The bound is reached, with recoverable failures only *)

(** Only recoverable failures *)
Definition recoverable (l : list tres) : Prop := Forall (eq TRecoverable) l.

Lemma fail_once c as_ s : has_rt c = true -> history c as_ s -> down s = None -> lpc s 0 = LIdle -> enabled s = true ->
  exists s', history c (TRecoverable :: as_) s' /\ down s' = None /\ lpc s' 0 = LIdle /\
    enabled s' = negb (too_many <=? in_a_row as_ + 1)%N.
Proof.
  intros Rt H D L E.
  set (s1 := begin (inr 0) (lgo 0 (LMeta (loss s)) s)).
  assert (S1 : step c s (LSend 0) = Some s1) by (unfold step; rewrite D, Rt; unfold lsend; rewrite L, E; reflexivity).
  pose proof (h_step c (LSend 0) as_ s s1 H S1) as H1. cbn [answered] in H1.
  set (s2 := note ELost (lgo 0 (LFin TRecoverable) s1)).
  assert (S2 : step c s1 (LCall 0 TRecoverable) = Some s2).
  { unfold step. change (down s1) with (down s). rewrite D. unfold lcall. change (lpc s1 0) with (LMeta (loss s)). reflexivity. }
  pose proof (h_step c _ as_ s1 s2 H1 S2) as H2. cbn [answered] in H2.
  set (s3 := fst (process TRecoverable (end_ (inr 0) (lgo 0 LIdle s2)))).
  assert (S3 : step c s2 (LFinish 0) = Some s3).
  { unfold step. change (down s2) with (down s). rewrite D. unfold lfinish. change (lpc s2 0) with (LFin TRecoverable). reflexivity. }
  pose proof (h_step c _ as_ s2 s3 H2 S3) as H3. change (answered s2 (LFinish 0)) with (Some TRecoverable) in H3. cbv iota in H3.
  exists s3. split; [exact H3|].
  destruct (answer_step c s2 (LFinish 0) s3 TRecoverable S3 eq_refl) as [_ En].
  destruct (counted _ _ _ H2) as [F _].
  assert (N : forall z, down (off z) = down z /\ lpc (off z) = lpc z) by (intros z; unfold off; destruct (enabled z); auto).
  split; [|split].
  - unfold s3, process. destruct (max_failures <=? _)%N; cbn [fst];
      [rewrite (proj1 (N _))|]; change (down s = None); exact D.
  - unfold s3, process. destruct (max_failures <=? _)%N; cbn [fst]; [rewrite (proj2 (N _))|]; reflexivity.
  - rewrite En, F. change (enabled s2) with (enabled s). rewrite E. reflexivity.
Qed.

Lemma failing c : has_rt c = true -> forall n, (n < too_many)%N ->
  exists as_ s, history c as_ s /\ recoverable as_ /\ in_a_row as_ = n /\ enabled s = true /\ down s = None /\ lpc s 0 = LIdle.
Proof.
  intros Rt. induction n as [|n IH] using N.peano_ind; intros B.
  - exists [], init. split; [constructor|]. split; [constructor|]. repeat split.
  - destruct IH as (as_ & s & H & R & A & E & D & L); [lia|].
    destruct (fail_once c as_ s Rt H D L E) as (s' & H' & D' & L' & E').
    exists (TRecoverable :: as_), s'. split; [exact H'|]. split; [constructor; [reflexivity|exact R]|].
    cbn [in_a_row]. split; [lia|]. split; [|auto]. rewrite E', A. apply negb_true_iff, N.leb_gt. lia.
Qed.

(** The threshold's documentation speaks of failures that are not recoverable; recoverable ones alone,
    which the tracer answers when it is only overloaded, switch tracing off for good. *)
Theorem C102_recoverable_refuted : forall c, has_rt c = true ->
  exists as_ s, history c as_ s /\ recoverable as_ /\ in_a_row as_ = (2 ^ 32 - 1)%N /\ enabled s = false.
Proof.
  intros c Rt. destruct (failing c Rt (too_many - 1)) as (as_ & s & H & R & A & E & D & L); [reflexivity|].
  destruct (fail_once c as_ s Rt H D L E) as (s' & H' & D' & L' & E').
  exists (TRecoverable :: as_), s'. split; [exact H'|]. split; [constructor; [reflexivity|exact R]|].
  cbn [in_a_row]. rewrite A, E'. split; [reflexivity|]. rewrite A. reflexivity.
Qed.

(** One failure less, and tracing is on. *)
Example ex_on : exists as_ s, history cd as_ s /\ in_a_row as_ = (2 ^ 32 - 2)%N /\ enabled s = true.
Proof. destruct (failing cd eq_refl (2 ^ 32 - 2)) as (as_ & s & H & _ & A & E & _); [reflexivity|]. eauto. Qed.

Lemma runs_history c ls : forall as_ s s', history c as_ s -> runs c s ls = Some s' -> exists as', history c as' s'.
Proof.
  induction ls as [|l ls IH]; cbn [runs]; intros as_ s s' H R.
  - injection R as <-. eauto.
  - destruct (step c s l) as [s1|] eqn:S; [|discriminate]. eapply IH; [|exact R]. econstructor; eassumption.
Qed.
(** A sample that the tracer refuses for good, before the answer is evaluated *)
Definition refused_run : list label :=
  [Create 0; Offer 0 ROk none true; Send e0 true ROk; Emplace e0; Call e0 TFinal].
Example ex_refused : exists as_ s s', history cd as_ s /\ pc s e0 = Fin true TFinal /\ step cd s (Finish e0) = Some s' /\ ps s' e0 = true /\ pa s' e0 = false.
Proof.
  destruct (runs cd init refused_run) as [s|] eqn:R; [|vm_compute in R; discriminate].
  destruct (runs_history cd refused_run [] init s (h_init cd) R) as [as_ H].
  exists as_, s. vm_compute in R. injection R as <-. eexists. split; [exact H|]. split; [reflexivity|].
  split; [reflexivity|]. split; vm_compute; reflexivity.
Qed.

Print Assumptions C102_on.
Print Assumptions C102_answer.
Print Assumptions C102_other.
Print Assumptions C102_points.
Print Assumptions C102_recoverable_refuted.
