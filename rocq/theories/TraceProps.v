(** * Tracing of sent samples: C89, C90, C91, C92, C93, C95 *)

From Coq Require Import List Arith Bool Lia NArith FinFun.
From Verif Require Import Base TraceModel.
Import ListNotations.

(** ** Specification vocabulary, over the history *)

(** The tracer has accepted trace [k] of [e] and not reported it as done. *)
Fixpoint pending (k : nat) (e : el) (h : list event) : bool :=
  match h with
  | [] => false
  | EDone j :: r => if j =? k then false else pending k e r
  | ETraced j x _ _ :: r => if (j =? k) && el_eqb x e then true else pending k e r
  | _ :: r => pending k e r
  end.

(** ... and the service has not been stopped since: the tracer may read the
    sample. *)
Fixpoint in_use (k : nat) (e : el) (h : list event) : bool :=
  match h with
  | [] => false
  | EDone j :: r => if j =? k then false else in_use k e r
  | EStop o :: r => if o =? fst e then false else in_use k e r
  | ETraced j x _ _ :: r => if (j =? k) && el_eqb x e then true else in_use k e r
  | _ :: r => in_use k e r
  end.

(** The numbers of the traces of [e] that the tracer works on. *)
Fixpoint working (e : el) (h : list event) : list nat :=
  match h with
  | [] => []
  | EDone j :: r => filter (fun i => negb (i =? j)) (working e r)
  | ETraced j x _ _ :: r => if el_eqb x e then j :: working e r else working e r
  | _ :: r => working e r
  end.

(** The number of the offer by which the object is offered now. *)
Fixpoint offer_now (o : nat) (h : list event) : option nat :=
  match h with
  | [] => None
  | EOffer p n :: r => if p =? o then Some n else offer_now o r
  | EStop p :: r => if p =? o then None else offer_now o r
  | _ :: r => offer_now o r
  end.

(** The process keeps the sample of trace [k] of [e], so that its memory is
    not written. *)
Definition held (k : nat) (e : el) (s : st) : Prop := exists id, slot s id = Some (k, e).

(** The tracing slots that the elements of the created skeletons need. *)
Definition need (c : cfg) (o : nat) : nat :=
  list_sum (map (fun e => if fs c e || fa c e then slots c e else 0) (members c o)).
Fixpoint needed (c : cfg) (ls : list label) : nat :=
  match ls with
  | [] => 0
  | Create o :: r => need c o + needed c r
  | _ :: r => needed c r
  end.

(** ** Conditions on the environment *)

Definition any (_ : st) (_ : label) : Prop := True.

(** The tracer has reported all traces of a service before the service is
    offered again. *)
Definition prompt (s : st) (l : label) : Prop :=
  match l with
  | Offer o _ _ _ => forallb (fun x => negb (fst (snd x) =? o)) (out s) = true
  | _ => True
  end.

(** A trace starts only when no other trace call is in progress. *)
Definition one_at_a_time (s : st) (l : label) : Prop :=
  match l with Send _ _ _ | LSend _ => busy s = [] | _ => True end.

(** Two objects for the same service instance are not offered at once; an
    OfferService that registers memory succeeds, and the tracer does not answer
    it with a recoverable or fatal error; rolling back after a crash succeeds;
    a service with trace points is not offered after tracing was switched off;
    the tracer does not refuse single traces for good. *)
Definition calm (c : cfg) (s : st) (l : label) : Prop :=
  match l with
  | Offer o r bad ok =>
      (forall p, offered s p = true -> inst c p <> inst c o) /\
      forallb (fun e => negb (bad e)) (members c o) = true /\
      (any_point c o s = true ->
       ok = true /\ enabled s = true /\ match r with RRecoverable | RTerminal => False | _ => True end)
  | Call _ TFinal => False
  | _ => True
  end.

(** ** Executing lists of labels *)

Fixpoint runs (c : cfg) (s : st) (ls : list label) : option st :=
  match ls with
  | [] => Some s
  | l :: r => match step c s l with Some s1 => runs c s1 r | None => None end
  end.

Fixpoint allowed (c : cfg) (ok : st -> label -> Prop) (s : st) (ls : list label) : Prop :=
  match ls with
  | [] => True
  | l :: r => ok s l /\ match step c s l with Some s1 => allowed c ok s1 r | None => False end
  end.

Lemma runs_reach_from c ok ls s' : forall ps s, reach c ok ps s -> allowed c ok s ls -> runs c s ls = Some s' ->
  reach c ok (ps ++ ls) s'.
Proof.
  induction ls as [|l ls IH]; intros ps s R A X; cbn in *.
  - injection X as <-. now rewrite app_nil_r.
  - destruct A as [O A]. destruct (step c s l) as [s1|] eqn:S; [|contradiction].
    replace (ps ++ l :: ls) with ((ps ++ [l]) ++ ls) by (rewrite <- app_assoc; reflexivity).
    apply (IH _ s1); try assumption. econstructor; eauto.
Qed.

Lemma allowed_any c ls s s' : runs c s ls = Some s' -> allowed c any s ls.
Proof.
  revert s. induction ls as [|l r IH]; cbn; intros s X; [exact Logic.I|].
  split; [exact Logic.I|]. destruct (step c s l); [eauto|discriminate].
Qed.

Lemma ex_run c ls (P : st -> Prop) :
  match runs c init ls with Some s => P s | None => False end -> exists s, reach c any ls s /\ P s.
Proof.
  destruct (runs c init ls) as [s|] eqn:X; [|contradiction]. intros H. exists s. split; [|exact H].
  apply (runs_reach_from c any ls s [] init); [constructor|eapply allowed_any; eauto|exact X].
Qed.

(** ** Counterexamples *)

(** One event per skeleton, traced by Send, with one tracing slot; all
    skeletons are for the same service instance. *)
Definition c1 : cfg :=
  mkCfg true 1 (fun _ => 1) (fun _ => 0) (fun _ => true) (fun _ => false) (fun _ => 1) (fun _ => false) (fun _ => false).
Definition c2 : cfg :=
  mkCfg true 2 (fun _ => 1) (fun _ => 0) (fun _ => true) (fun _ => false) (fun _ => 1) (fun _ => false) (fun _ => false).
Definition c0 : cfg :=
  mkCfg false 0 (fun _ => 1) (fun _ => 0) (fun _ => true) (fun _ => false) (fun _ => 1) (fun _ => false) (fun _ => false).
Definition e0 : el := (0, 0).
Definition none : el -> bool := fun _ => false.
Definition trace1 (e : el) (t : tres) : list label := [Send e false NotTyped; Emplace e; Call e t; Finish e].

(** The tracer's report about a trace of the stopped service releases a sample
    of the service's next offer that the tracer is still reading: the slot's
    number is used again. *)
Theorem C89_late_report_refuted :
  exists c ls s k e, reach c any ls s /\ in_use k e (log s) = true /\ offered s (fst e) = true /\ ~ held k e s.
Proof.
  destruct (ex_run c1 ([Create 0; Offer 0 ROk none true] ++ trace1 e0 TOk ++ [Stop 0 false; Offer 0 ROk none true] ++
                       trace1 e0 TOk ++ [Done 0])
              (fun s => in_use 1 e0 (log s) = true /\ offered s (fst e0) = true /\ ~ held 1 e0 s)) as (s & R & P).
  - cbv beta iota. match goal with |- context [runs ?c ?i ?l] => let x := eval vm_compute in (runs c i l) in change (runs c i l) with x end.
    cbv iota. split; [vm_compute; reflexivity|]. split; [vm_compute; reflexivity|].
    intros [id H]. cbn [slot] in H. destruct id as [|id]; vm_compute in H; discriminate.
  - exact (ex_intro _ c1 (ex_intro _ _ (ex_intro _ s (ex_intro _ 1 (ex_intro _ e0 (conj R P)))))).
Qed.

(** Two traces that the tracer works on at the same time have the same id. *)
Theorem C90_same_id_refuted :
  exists c ls s j k e id m n, reach c any ls s /\ j <> k /\
    In (ETraced j e id m) (log s) /\ In (ETraced k e id n) (log s) /\ pending j e (log s) = true /\ pending k e (log s) = true.
Proof.
  destruct (ex_run c1 ([Create 0; Offer 0 ROk none true] ++ trace1 e0 TOk ++ [Stop 0 false; Offer 0 ROk none true] ++
                       trace1 e0 TOk)
              (fun s => 0 <> 1 /\ In (ETraced 0 e0 0 0) (log s) /\ In (ETraced 1 e0 0 1) (log s) /\
                        pending 0 e0 (log s) = true /\ pending 1 e0 (log s) = true)) as (s & R & P).
  - vm_compute. intuition discriminate.
  - exists c1. do 2 eexists. exists 0, 1, e0, 0, 0, 1. split; [exact R|exact P].
Qed.

(** A record is lost, and neither the records sent meanwhile nor those started
    later carry the data-loss bit: a trace call that had started before clears
    the flag. *)
Theorem C91_loss_not_announced_refuted :
  exists c ls t s s', reach c any ls s /\ In ELost (log s) /\ busy s = [] /\ enabled s = true /\
    runs c s [LSend t; LCall t TOk] = Some s' /\ In (ERec false) (log s') /\ ~ In (ERec true) (log s').
Proof.
  set (ls := [LSend 0; LSend 1; LCall 0 TRecoverable; LFinish 0; LCall 1 TOk; LFinish 1]).
  destruct (ex_run c1 ls (fun s => In ELost (log s) /\ busy s = [] /\ enabled s = true /\
              match runs c1 s [LSend 0; LCall 0 TOk] with
              | Some s' => In (ERec false) (log s') /\ ~ In (ERec true) (log s')
              | None => False end)) as (s & R & P1 & P2 & P3 & P4).
  - vm_compute. intuition discriminate.
  - destruct (runs c1 s [LSend 0; LCall 0 TOk]) as [s'|] eqn:X; [|contradiction].
    exists c1, ls, 0, s, s'. tauto.
Qed.

(** A first OfferService that fails after the memory was registered makes the
    next one end the process. *)
Theorem C92_offer_after_failed_offer_refuted :
  exists c ls s, reach c any ls s /\ needed c ls <= total c /\
    ls = [Create 0; Offer 0 ROk none false; Offer 0 ROk none true] /\ down s = Some Terminated.
Proof.
  destruct (ex_run c1 [Create 0; Offer 0 ROk none false; Offer 0 ROk none true] (fun s => down s = Some Terminated))
    as (s & R & P); [vm_compute; reflexivity|].
  exists c1. eexists. exists s. split; [exact R|]. split; [vm_compute; lia|]. split; [reflexivity|exact P].
Qed.

(** The same if the tracer answers recoverably both times. *)
Theorem C92_recoverable_twice_refuted :
  exists c ls s, reach c any ls s /\ needed c ls <= total c /\
    ls = [Create 0; Offer 0 RRecoverable none false; Offer 0 RRecoverable none true] /\ down s = Some Terminated.
Proof.
  destruct (ex_run c1 [Create 0; Offer 0 RRecoverable none false; Offer 0 RRecoverable none true]
              (fun s => down s = Some Terminated)) as (s & R & P); [vm_compute; reflexivity|].
  exists c1. eexists. exists s. split; [exact R|]. split; [vm_compute; lia|]. split; [reflexivity|exact P].
Qed.

(** The slots of a skeleton that is no longer offered are never given back:
    constructing it again ends the process, although the slots suffice for
    the configured service instance. *)
Theorem C92_skeleton_again_refuted :
  exists c ls s, reach c any ls s /\ need c 0 <= total c /\ inst c 1 = inst c 0 /\
    ls = [Create 0; Offer 0 ROk none true; Stop 0 false; Create 1] /\ down s = Some Terminated.
Proof.
  destruct (ex_run c1 [Create 0; Offer 0 ROk none true; Stop 0 false; Create 1] (fun s => down s = Some Terminated))
    as (s & R & P); [vm_compute; reflexivity|].
  exists c1. eexists. exists s. split; [exact R|]. split; [vm_compute; lia|]. repeat split; try exact P.
Qed.

(** If tracing is switched off before a skeleton with trace points is offered,
    its first Send is undefined behaviour. *)
Theorem C92_send_after_off_refuted :
  exists c ls s, reach c any ls s /\ needed c ls <= total c /\
    ls = [Create 0; Disable; Offer 0 ROk none true; Send e0 false NotTyped] /\ down s = Some Undefined.
Proof.
  destruct (ex_run c1 [Create 0; Disable; Offer 0 ROk none true; Send e0 false NotTyped] (fun s => down s = Some Undefined))
    as (s & R & P); [vm_compute; reflexivity|].
  exists c1. eexists. exists s. split; [exact R|]. split; [vm_compute; lia|]. split; [reflexivity|exact P].
Qed.

(** The same after the tracer answered the registration of the memory with its
    terminal error, which switches tracing off within OfferService. *)
Theorem C92_fatal_registration_refuted :
  exists c ls s, reach c any ls s /\ needed c ls <= total c /\
    ls = [Create 0; Offer 0 RTerminal none true; Send e0 false NotTyped] /\ down s = Some Undefined.
Proof.
  destruct (ex_run c1 [Create 0; Offer 0 RTerminal none true; Send e0 false NotTyped] (fun s => down s = Some Undefined))
    as (s & R & P); [vm_compute; reflexivity|].
  exists c1. eexists. exists s. split; [exact R|]. split; [vm_compute; lia|]. split; [reflexivity|exact P].
Qed.

(** The same after a restart in which rolling back the crashed process's
    transactions failed, which is meant to only switch tracing off. *)
Theorem C92_failed_rollback_refuted :
  exists c ls s, reach c any ls s /\ needed c ls <= total c /\
    ls = [Create 0; Offer 0 ROk (fun _ => true) true; Send e0 false NotTyped] /\ down s = Some Undefined.
Proof.
  destruct (ex_run c1 [Create 0; Offer 0 ROk (fun _ => true) true; Send e0 false NotTyped] (fun s => down s = Some Undefined))
    as (s & R & P); [vm_compute; reflexivity|].
  exists c1. eexists. exists s. split; [exact R|]. split; [vm_compute; lia|]. split; [reflexivity|exact P].
Qed.

(** In a process without tracing such a failed rollback is undefined behaviour
    within OfferService. *)
Theorem C92_rollback_without_tracing_refuted :
  exists c ls s, reach c any ls s /\ has_rt c = false /\
    ls = [Create 0; Offer 0 NotTyped (fun _ => true) true] /\ down s = Some Undefined.
Proof.
  destruct (ex_run c0 [Create 0; Offer 0 NotTyped (fun _ => true) true] (fun s => down s = Some Undefined))
    as (s & R & P); [vm_compute; reflexivity|].
  exists c0. eexists. exists s. split; [exact R|]. split; [reflexivity|]. split; [reflexivity|exact P].
Qed.

(** After the tracer refused an event's traces for good, StopOfferService does
    not unregister the memory; the next skeleton for the service instance ends
    the process when it is offered. *)
Theorem C92_refused_then_new_skeleton_refuted :
  exists c ls s, reach c any ls s /\ needed c ls <= total c /\
    ls = [Create 0; Offer 0 ROk none true] ++ trace1 e0 TFinal ++ [Stop 0 false; Create 1; Offer 1 ROk none true] /\
    down s = Some Terminated.
Proof.
  destruct (ex_run c2 ([Create 0; Offer 0 ROk none true] ++ trace1 e0 TFinal ++ [Stop 0 false; Create 1; Offer 1 ROk none true])
              (fun s => down s = Some Terminated)) as (s & R & P); [vm_compute; reflexivity|].
  exists c2. eexists. exists s. split; [exact R|]. split; [vm_compute; lia|]. split; [reflexivity|exact P].
Qed.

(** After a failed OfferService, samples of the next offer are traced as if
    they lay in the memory of the failed one. *)
Theorem C93_old_memory_refuted :
  exists c ls s h k e id n, reach c any ls s /\ needed c ls <= total c /\ down s = None /\
    log s = ERec false :: ETraced k e id n :: h /\ offer_now (fst e) h = Some 1 /\ n = 0.
Proof.
  destruct (ex_run c1 ([Create 0; Offer 0 ROk none false; Offer 0 RFinal none true; Send e0 false NotTyped; Emplace e0; Call e0 TOk])
              (fun s => down s = None /\ log s = ERec false :: ETraced 0 e0 0 0 :: [EOffer 0 1; EReg 1; EStop 0; EReg 0]))
    as (s & R & P1 & P2); [vm_compute; split; reflexivity|].
  exists c1. eexists. exists s. eexists. exists 0, e0, 0, 0. split; [exact R|]. split; [vm_compute; lia|]. split; [exact P1|].
  split; [exact P2|]. split; reflexivity.
Qed.

(** After a recoverable error of the registration, the registration is not
    tried again by the next Send, as the log message says; the trace point is
    switched off. *)
Theorem C93_retry_refuted :
  exists c ls s, reach c any ls s /\ needed c ls <= total c /\
    ls = [Create 0; Offer 0 RRecoverable none true; Send e0 false ROk] /\
    down s = None /\ enabled s = true /\ ps s e0 = false /\ log s = [EOffer 0 0; EReg 0].
Proof.
  destruct (ex_run c1 [Create 0; Offer 0 RRecoverable none true; Send e0 false ROk]
              (fun s => down s = None /\ enabled s = true /\ ps s e0 = false /\ log s = [EOffer 0 0; EReg 0]))
    as (s & R & P); [vm_compute; repeat split|].
  exists c1. eexists. exists s. split; [exact R|]. split; [vm_compute; lia|]. split; [reflexivity|exact P].
Qed.

(** ** Basic facts *)

Ltac proj := cbn [enabled loss fails nxt slot hmap cmap rng ps pa bp tlog guard pc created offered cur lpc busy noffers ntraces
                  out log down set_enabled set_loss set_fails set_slot set_slots set_hmap set_cmap set_points set_bp set_range
                  set_prep go set_created set_offered next_offer lgo begin end_ next_trace set_out note die] in *.

Lemma el_eqb_spec a b : reflect (a = b) (el_eqb a b).
Proof.
  unfold el_eqb. destruct a as [a1 a2], b as [b1 b2]; cbn.
  destruct (Nat.eqb_spec a1 b1), (Nat.eqb_spec a2 b2); cbn; constructor; congruence.
Qed.
Lemma el_eqb_refl a : el_eqb a a = true.
Proof. destruct (el_eqb_spec a a); congruence. Qed.
Lemma el_eqb_neq a b : a <> b -> el_eqb a b = false.
Proof. destruct (el_eqb_spec a b); congruence. Qed.
Lemma eupd_eq {A} (f : el -> A) e v : eupd f e v e = v.
Proof. unfold eupd. now rewrite el_eqb_refl. Qed.
Lemma eupd_neq {A} (f : el -> A) e v x : x <> e -> eupd f e v x = f x.
Proof. intros H. unfold eupd. now rewrite el_eqb_neq. Qed.
Lemma el_dec (a b : el) : {a = b} + {a <> b}.
Proof. destruct (el_eqb_spec a b); auto. Qed.
Lemma act_eqb_spec a b : reflect (a = b) (act_eqb a b).
Proof.
  destruct a as [a|a], b as [b|b]; cbn; try (constructor; congruence).
  - destruct (el_eqb_spec a b); constructor; congruence.
  - destruct (Nat.eqb_spec a b); constructor; congruence.
Qed.

Lemma members_in c o e : In e (members c o) <-> fst e = o /\ snd e < nel c o.
Proof.
  unfold members. rewrite in_map_iff. split.
  - intros (i & <- & H). apply in_seq in H. cbn. split; [reflexivity|lia].
  - intros [<- H]. exists (snd e). split; [destruct e; reflexivity|apply in_seq; lia].
Qed.
Lemma members_nodup c o : NoDup (members c o).
Proof. unfold members. apply FinFun.Injective_map_NoDup; [intros a b H; congruence|apply seq_NoDup]. Qed.

Lemma each_inv {A} (P : st -> Prop) (f : A -> st -> st) l s :
  (forall x s, In x l -> P s -> P (f x s)) -> P s -> P (each f l s).
Proof.
  revert s. induction l as [|x r IH]; cbn; intros s H P0; [exact P0|].
  assert (P1 : P (f x s)) by (apply H; auto). destruct (down (f x s)); [exact P1|].
  apply IH; auto.
Qed.

(** [f x] establishes [Q x] and the others keep it. *)
Lemma each_all {A} (P : st -> Prop) (Q : A -> st -> Prop) (f : A -> st -> st) l s :
  (forall x s, In x l -> P s -> down s = None -> P (f x s)) ->
  (forall x s, In x l -> P s -> down s = None -> down (f x s) = None -> Q x (f x s)) ->
  (forall x y s, In x l -> In y l -> P s -> down s = None -> Q x s -> Q x (f y s)) ->
  P s -> down s = None -> down (each f l s) = None ->
  P (each f l s) /\ forall x, In x l -> Q x (each f l s).
Proof.
  intros H1 H2 H3.
  assert (G : forall pre l2 s, incl pre l -> incl l2 l -> P s -> down s = None -> (forall x, In x pre -> Q x s) ->
            down (each f l2 s) = None -> P (each f l2 s) /\ forall x, In x pre \/ In x l2 -> Q x (each f l2 s)).
  { intros pre l2. revert pre. induction l2 as [|y r IH]; cbn; intros pre s0 I1 I2 P0 D0 Q0 D1.
    - split; [exact P0|]. intros x [I|[]]. auto.
    - assert (In y l) by (apply I2; now left).
      destruct (down (f y s0)) eqn:D2; [congruence|].
      edestruct (IH (y :: pre) (f y s0)) as [G1 G2]; auto.
      + intros z [<- | I]; auto.
      + intros z I; apply I2; now right.
      + intros x [<- | I]; [now apply H2|]. apply H3; auto.
      + split; [exact G1|]. intros x I. apply G2. cbn. tauto. }
  intros P0 D0 D1. destruct (G [] l s) as [G1 G2]; auto.
  - intros z [].
  - intros z I; exact I.
  - intros x [].
Qed.

Lemma off_frame s : off s = s \/ (enabled s = true /\ off s = note EOff (set_enabled false s)).
Proof. unfold off. destruct (enabled s); auto. Qed.

(** What [prepare] does for the elements of [o]. *)
Record pframe (o : nat) (s s' : st) : Prop := {
  p_same : loss s' = loss s /\ fails s' = fails s /\ nxt s' = nxt s /\ slot s' = slot s /\ hmap s' = hmap s /\ cmap s' = cmap s /\
           rng s' = rng s /\ ps s' = ps s /\ pa s' = pa s /\ pc s' = pc s /\ created s' = created s /\ offered s' = offered s /\
           cur s' = cur s /\ lpc s' = lpc s /\ busy s' = busy s /\ noffers s' = noffers s /\ ntraces s' = ntraces s /\ out s' = out s;
  p_log : (log s' = log s /\ enabled s' = enabled s) \/ (log s' = EOff :: log s /\ enabled s = true /\ enabled s' = false);
  p_other : forall e, fst e <> o -> bp s' e = bp s e /\ tlog s' e = tlog s e /\ guard s' e = guard s e
}.

Lemma pframe_refl o s : pframe o s s.
Proof. constructor; [repeat split|auto|auto]. Qed.

Lemma pframe_trans o a b d : pframe o a b -> pframe o b d -> pframe o a d.
Proof.
  intros [A1 A2 A3] [B1 B2 B3]. constructor.
  - decompose [and] A1. decompose [and] B1. repeat split; congruence.
  - destruct A2 as [[A2 A4]|(A2 & A4 & A5)], B2 as [[B2 B4]|(B2 & B4 & B5)].
    + left; split; congruence.
    + right; repeat split; congruence.
    + right; repeat split; congruence.
    + congruence.
  - intros e N. destruct (A3 e N) as (?&?&?), (B3 e N) as (?&?&?). repeat split; congruence.
Qed.

Lemma prepare_frame c bad e s : pframe (fst e) s (prepare c bad e s).
Proof.
  unfold prepare. destruct (bad e && negb (has_rt c)); [constructor; proj; [repeat split|auto|auto]|].
  set (s1 := if bad e then off s else s).
  assert (F1 : pframe (fst e) s s1).
  { unfold s1. destruct (bad e); [|apply pframe_refl].
    destruct (off_frame s) as [-> |[E ->]]; [apply pframe_refl|]. constructor; proj; [repeat split|auto|auto]. }
  apply (pframe_trans _ _ _ _ F1). clearbody s1. clear F1.
  destruct (has_rt c && enabled s1); constructor; proj; auto; try (repeat split; reflexivity);
    intros x N; rewrite ?eupd_neq by congruence; auto.
Qed.

Lemma prepares_frame c bad o s : pframe o s (each (prepare c bad) (members c o) s).
Proof.
  apply (each_inv (pframe o s)); [|apply pframe_refl].
  intros e s1 I F. apply members_in in I as [<- _]. eapply pframe_trans; [exact F|apply prepare_frame].
Qed.

(** What [unprepare] does. *)
Record uframe (o : nat) (s s' : st) : Prop := {
  u_same : enabled s' = enabled s /\ loss s' = loss s /\ fails s' = fails s /\ nxt s' = nxt s /\ hmap s' = hmap s /\ cmap s' = cmap s /\
           rng s' = rng s /\ ps s' = ps s /\ pa s' = pa s /\ bp s' = bp s /\ pc s' = pc s /\ created s' = created s /\
           offered s' = offered s /\
           cur s' = cur s /\ lpc s' = lpc s /\ busy s' = busy s /\ noffers s' = noffers s /\ ntraces s' = ntraces s /\ out s' = out s /\
           log s' = log s /\ down s' = down s;
  u_slot : forall id, slot s' id = slot s id \/
             (slot s' id = None /\ exists e, fst e = o /\ fst (rng s e) <= id < fst (rng s e) + snd (rng s e));
  u_other : forall e, fst e <> o -> tlog s' e = tlog s e /\ guard s' e = guard s e
}.

Lemma uframe_refl o s : uframe o s s.
Proof. constructor; [repeat split|auto|auto]. Qed.

Lemma uframe_trans o a b d : uframe o a b -> uframe o b d -> uframe o a d.
Proof.
  intros [A1 A2 A3] [B1 B2 B3]. decompose [and] A1. decompose [and] B1. constructor.
  - repeat split; congruence.
  - intros id. destruct (B2 id) as [X|[X (e & Y & Z)]]; [rewrite X; destruct (A2 id) as [W|W]; [left; congruence|right; exact W]|].
    right. split; [exact X|]. exists e. split; [exact Y|]. congruence.
  - intros e N. destruct (A3 e N), (B3 e N). split; congruence.
Qed.

Lemma unprepare_frame e s : uframe (fst e) s (unprepare e s).
Proof.
  unfold unprepare. destruct (guard s e); constructor; proj; auto; try (repeat split; reflexivity);
    try (intros x N; rewrite !eupd_neq by congruence; auto).
  intros id. unfold clear. destruct ((fst (rng s e) <=? id) && (id <? fst (rng s e) + snd (rng s e))) eqn:X; [|auto].
  right. split; [reflexivity|]. exists e. split; [reflexivity|]. lia.
Qed.

Lemma unprepares_frame c o s : uframe o s (each unprepare (members c o) s).
Proof.
  apply (each_inv (uframe o s)); [|apply uframe_refl].
  intros e s1 I F. apply members_in in I as [<- _]. eapply uframe_trans; [exact F|apply unprepare_frame].
Qed.

(** Afterwards the slots of the guarded elements are empty, and there are no
    guards. *)
Lemma unprepares_clear c o s : down s = None ->
  forall e, In e (members c o) -> let s' := each unprepare (members c o) s in
  guard s' e = false /\ tlog s' e = false /\
  (guard s e = true -> forall id, fst (rng s e) <= id < fst (rng s e) + snd (rng s e) -> slot s' id = None).
Proof.
  intros D.
  assert (D1 : down (each unprepare (members c o) s) = None) by (destruct (unprepares_frame c o s) as [F _ _]; decompose [and] F; congruence).
  pose (P := fun x : st => uframe o s x /\ forall e, In e (members c o) -> guard x e = guard s e \/
          (guard s e = true -> forall id, fst (rng s e) <= id < fst (rng s e) + snd (rng s e) -> slot x id = None)).
  pose (Q := fun (e : el) (x : st) => guard x e = false /\ tlog x e = false /\
          (guard s e = true -> forall id, fst (rng s e) <= id < fst (rng s e) + snd (rng s e) -> slot x id = None)).
  destruct (each_all P Q unprepare (members c o) s) as [_ G]; auto.
  - intros e x I [F G] Dx. pose proof (proj1 (proj1 (members_in c o e) I)) as M. split.
    + eapply uframe_trans; [exact F|]. rewrite <- M. apply unprepare_frame.
    + intros y J. destruct (el_dec y e) as [-> | N].
      * right. intros Gy id R. unfold unprepare. destruct (guard x e) eqn:Gx; proj.
        -- unfold clear. destruct F as [F _ _]. decompose [and] F. replace (rng x) with (rng s) by congruence.
           replace (fst (rng s e) <=? id) with true by lia. replace (id <? fst (rng s e) + snd (rng s e)) with true by lia. reflexivity.
        -- destruct (G e I) as [W|W]; [congruence|auto].
      * destruct (G y J) as [W|W].
        -- left. unfold unprepare. destruct (guard x e); proj; rewrite eupd_neq by auto; exact W.
        -- right. intros Gy id R. specialize (W Gy id R). unfold unprepare. destruct (guard x e); proj; [|exact W].
           unfold clear. destruct (_ && _); auto.
  - intros e x I [F G] Dx Dy. unfold Q. split; [|split].
    + unfold unprepare. destruct (guard x e); proj; now rewrite eupd_eq.
    + unfold unprepare. destruct (guard x e); proj; now rewrite eupd_eq.
    + intros Gy id R. unfold unprepare. destruct (guard x e) eqn:Gx; proj.
      * unfold clear. destruct F as [F _ _]. decompose [and] F. replace (rng x) with (rng s) by congruence.
        replace (fst (rng s e) <=? id) with true by lia. replace (id <? fst (rng s e) + snd (rng s e)) with true by lia. reflexivity.
      * destruct (G e I) as [W|W]; [congruence|auto].
  - intros e y x I J [F G] Dx (Q1 & Q2 & Q3). unfold Q, unprepare. destruct (guard x y); proj.
    + split; [|split].
      * unfold eupd; destruct (el_eqb e y); auto.
      * unfold eupd; destruct (el_eqb e y); auto.
      * intros Gy id R. unfold clear. destruct (_ && _); auto.
    + split; [|split]; [unfold eupd; destruct (el_eqb e y); auto..|exact Q3].
  - split; [apply uframe_refl|]. intros; left; reflexivity.
Qed.

(** What constructing an element does. *)
Record nframe (s s' : st) : Prop := {
  n_same : enabled s' = enabled s /\ loss s' = loss s /\ fails s' = fails s /\ slot s' = slot s /\ hmap s' = hmap s /\ cmap s' = cmap s /\
           tlog s' = tlog s /\ guard s' = guard s /\ pc s' = pc s /\ created s' = created s /\ offered s' = offered s /\
           cur s' = cur s /\ lpc s' = lpc s /\ busy s' = busy s /\ noffers s' = noffers s /\ ntraces s' = ntraces s /\ out s' = out s /\
           log s' = log s;
}.

(** ** The invariant *)

Definition within (s : st) (e : el) (id : nat) : Prop := fst (rng s e) <= id < fst (rng s e) + snd (rng s e).

Record inv (c : cfg) (s : st) : Prop := {
  i_rng : forall e, snd (rng s e) = 0 \/ (snd (rng s e) = slots c e /\ fst (rng s e) + snd (rng s e) <= nxt s);
  i_dis : forall e x id, within s e id -> within s x id -> e = x;
  i_pts : forall e, ps s e = true \/ pa s e = true -> 0 < snd (rng s e) /\ has_rt c = true /\ (enabled s = true -> bp s e = true);
  i_grd : forall e, offered s (fst e) = true -> snd e < nel c (fst e) -> ps s e = true \/ pa s e = true -> enabled s = true ->
          guard s e = true;
  i_pc : forall e, pc s e <> Idle -> offered s (fst e) = true /\ snd e < nel c (fst e) /\ 0 < snd (rng s e) /\ guard s e = true;
  i_placed : forall e f n a id k, pc s e = Placed f n a id k ->
          k < ntraces s /\ within s e id /\ (forall j x, ~ In (k, j, x) (out s)) /\
          (forall x f' n' a' id', pc s x = Placed f' n' a' id' k -> x = e);
  i_slot : forall id k e, slot s id = Some (k, e) -> within s e id /\ k < ntraces s /\ offered s (fst e) = true /\
          snd e < nel c (fst e) /\ guard s e = true /\ (In (k, id, e) (out s) \/ exists f n a, pc s e = Placed f n a id k);
  i_out : forall k id e, In (k, id, e) (out s) -> k < ntraces s /\ within s e id /\
          (forall id' e', In (k, id', e') (out s) -> id' = id /\ e' = e);
  i_pend : forall k e, pending k e (log s) = true <-> exists id, In (k, id, e) (out s);
  i_work : forall k id e, In (k, id, e) (out s) -> In k (working e (log s));
  i_use : forall k e, in_use k e (log s) = true -> pending k e (log s) = true /\ offered s (fst e) = true;
  i_held : forall id k e, slot s id = Some (k, e) -> In (k, id, e) (out s) -> in_use k e (log s) = true
}.

Record fresh (c : cfg) (s : st) : Prop := {
  f_new : forall e, created s (fst e) = false -> snd (rng s e) = 0 /\ ps s e = false /\ pa s e = false;
  f_off : forall o, offered s o = true -> created s o = true
}.

Lemma init_inv c : inv c init.
Proof.
  constructor; unfold within; cbn; auto; try (intros; lia); try discriminate; try (intros; contradiction);
    try (intros; intuition discriminate).
  all: intros k e; try (split; [discriminate|intros [? []]]); intros; try discriminate; try (split; discriminate).
Qed.
Lemma init_fresh c : fresh c init.
Proof. constructor; cbn; auto; discriminate. Qed.

(** *** Constructing *)

Lemma new_element_inv c e s : inv c s -> snd (rng s e) = 0 -> offered s (fst e) = false -> inv c (new_element c e s).
Proof.
  intros I R0 O. unfold new_element.
  destruct (has_rt c && enabled s) eqn:X; [|exact I]. destruct (fs c e || fa c e) eqn:F; [|exact I].
  destruct (slots c e =? 0) eqn:Z; [destruct I; constructor; proj; assumption|].
  destruct (total c <=? nxt s + slots c e - 1); [destruct I; constructor; proj; assumption|].
  apply andb_true_iff in X as [X1 X2]. apply Nat.eqb_neq in Z.
  assert (W : forall x id, within s x id -> x <> e) by (intros x id H ->; unfold within in H; lia).
  assert (B : forall x id, within s x id -> id < nxt s) by (intros x id H; destruct (i_rng c s I x) as [? | [? ?]]; unfold within in H; lia).
  destruct I as [I1 I2 I3 I4 I5 I6 I7 I8 I9 I10 I11 I12].
  constructor; unfold within in *; proj.
  - intros x. unfold eupd. destruct (el_eqb_spec x e) as [-> | N]; cbn [fst snd]; [right; lia|].
    destruct (I1 x) as [? | [? ?]]; [left; lia|right; lia].
  - intros x y id. unfold eupd. destruct (el_eqb_spec x e) as [-> | N], (el_eqb_spec y e) as [-> | N']; cbn [fst snd]; intros H1 H2; auto.
    + apply B in H2. lia.
    + apply B in H1. lia.
    + eapply I2; eauto.
  - intros x. unfold eupd. destruct (el_eqb_spec x e) as [-> | N]; cbn [fst snd]; [intros _; repeat split; auto; lia|apply I3].
  - intros x Ho Hn. unfold eupd. destruct (el_eqb_spec x e) as [-> | N]; [congruence|]. auto.
  - intros x H. destruct (I5 x H) as (A1 & A2 & A3 & A4). unfold eupd. destruct (el_eqb_spec x e) as [-> | N]; [congruence|auto].
  - intros x f n a id k H. destruct (I6 x f n a id k H) as (A1 & A2 & A3 & A4). rewrite eupd_neq by eauto. auto.
  - intros id k x H. destruct (I7 id k x H) as (A1 & A2 & A3 & A4 & A5 & A6). rewrite eupd_neq by eauto. auto 8.
  - intros k id x H. destruct (I8 k id x H) as (A1 & A2 & A3). rewrite eupd_neq by eauto. auto.
  - exact I9.
  - exact I10.
  - exact I11.
  - exact I12.
Qed.

Lemma new_element_frame c e s : nframe s (new_element c e s) /\
  forall x, x <> e -> rng (new_element c e s) x = rng s x /\ ps (new_element c e s) x = ps s x /\ pa (new_element c e s) x = pa s x.
Proof.
  unfold new_element.
  repeat match goal with |- context [if ?b then _ else _] => destruct b end;
    (split; [constructor; proj; repeat split|]; intros x N; proj; rewrite ?eupd_neq by assumption; auto).
Qed.

Lemma new_elements_inv c l : forall s, NoDup l -> inv c s -> (forall e, In e l -> snd (rng s e) = 0 /\ offered s (fst e) = false) ->
  let s' := each (new_element c) l s in
  inv c s' /\ nframe s s' /\ forall x, ~ In x l -> rng s' x = rng s x /\ ps s' x = ps s x /\ pa s' x = pa s x.
Proof.
  induction l as [|e r IH]; cbn [each]; intros s ND I H.
  - cbn. split; [exact I|]. split; [constructor; repeat split|auto].
  - inversion ND as [|? ? N1 N2]; subst. destruct (H e (or_introl eq_refl)) as [H1 H2].
    pose proof (new_element_inv c e s I H1 H2) as I1. destruct (new_element_frame c e s) as [[F1] F2].
    destruct (down (new_element c e s)) eqn:D.
    + split; [exact I1|]. split; [constructor; exact F1|]. intros x N. apply F2. intros ->. apply N. now left.
    + destruct (IH (new_element c e s) N2 I1) as (G1 & [G2] & G3).
      * intros x Hx. assert (x <> e) by congruence. destruct (F2 x) as (-> & _); [assumption|].
        decompose [and] F1. replace (offered (new_element c e s)) with (offered s) by congruence. apply H. now right.
      * split; [exact G1|]. split.
        -- constructor. decompose [and] F1. decompose [and] G2. repeat split; congruence.
        -- intros x N. destruct (G3 x) as (-> & -> & ->); [intros J; apply N; now right|]. apply F2. intros ->. apply N. now left.
Qed.

(** *** Switching off, registering and preparing *)

Lemma off_inv c s : inv c s -> inv c (off s).
Proof.
  intros I. destruct (off_frame s) as [-> |[E ->]]; [exact I|].
  destruct I as [I1 I2 I3 I4 I5 I6 I7 I8 I9 I10 I11 I12]. constructor; unfold within in *; proj; auto.
  all: try discriminate.
  intros e H. destruct (I3 e H) as (A & B & _). repeat split; auto. discriminate.
Qed.

Lemma off_down s : down (off s) = down s.
Proof. unfold off. destruct (enabled s); reflexivity. Qed.

(** Events that concern neither traces nor offers. *)
Definition minor (x : event) : bool := match x with ERec _ | ELost | EReg _ | ERetry _ | EUnreg _ | EOff => true | _ => false end.

Lemma note_minor_inv c x s : minor x = true -> inv c s -> inv c (note x s).
Proof.
  intros M I. destruct I as [I1 I2 I3 I4 I5 I6 I7 I8 I9 I10 I11 I12].
  assert (P : forall k e, pending k e (x :: log s) = pending k e (log s)) by (intros; destruct x; try discriminate; reflexivity).
  assert (U : forall k e, in_use k e (x :: log s) = in_use k e (log s)) by (intros; destruct x; try discriminate; reflexivity).
  assert (W : forall e, working e (x :: log s) = working e (log s)) by (intros; destruct x; try discriminate; reflexivity).
  constructor; unfold within in *; proj; auto.
  - intros k e. rewrite P. apply I9.
  - intros k id e. rewrite W. apply I10.
  - intros k e. rewrite U, P. apply I11.
  - intros id k e. rewrite U. apply I12.
Qed.

Lemma die_inv c f s : inv c s -> inv c (die f s).
Proof. intros []; constructor; assumption. Qed.
Lemma hmap_inv c i v s : inv c s -> inv c (set_hmap i v s).
Proof. intros []; constructor; assumption. Qed.
Lemma cmap_inv c i v s : inv c s -> inv c (set_cmap i v s).
Proof. intros []; constructor; assumption. Qed.
Lemma loss_inv c b s : inv c s -> inv c (set_loss b s).
Proof. intros []; constructor; assumption. Qed.
Lemma fails_inv c b s : inv c s -> inv c (set_fails b s).
Proof. intros []; constructor; assumption. Qed.
Lemma next_offer_inv c o s : inv c s -> inv c (next_offer o s).
Proof. intros []; constructor; assumption. Qed.
Lemma begin_inv c x s : inv c s -> inv c (begin x s).
Proof. intros []; constructor; assumption. Qed.
Lemma end_inv c x s : inv c s -> inv c (end_ x s).
Proof. intros []; constructor; assumption. Qed.
Lemma lgo_inv c t p s : inv c s -> inv c (lgo t p s).
Proof. intros []; constructor; assumption. Qed.

Lemma register_inv c i n r s : inv c s -> inv c (register i n r s).
Proof.
  intros I. unfold register. destruct (enabled s); [|exact I].
  destruct r; cbv zeta; proj; repeat match goal with |- context [match ?x with _ => _ end] => destruct x end;
    auto using off_inv, note_minor_inv, die_inv, hmap_inv, cmap_inv.
Qed.
Lemma unregister_inv c i t s : inv c s -> inv c (unregister i t s).
Proof.
  intros I. unfold unregister. destruct (enabled s); [|exact I]. cbv zeta.
  repeat match goal with |- context [match ?x with _ => _ end] => destruct x end;
    auto using off_inv, note_minor_inv, die_inv, hmap_inv, cmap_inv.
Qed.

(** The guards of an element whose service is not offered are irrelevant. *)
Lemma prep_inv c e l g s : offered s (fst e) = false -> inv c s -> inv c (set_prep e l g s).
Proof.
  intros O [I1 I2 I3 I4 I5 I6 I7 I8 I9 I10 I11 I12]. constructor; unfold within in *; proj; auto.
  - intros x Ho Hn Hp He. rewrite eupd_neq by congruence. auto.
  - intros x H. destruct (I5 x H) as (A1 & A2 & A3 & A4). rewrite eupd_neq by congruence. auto.
  - intros id k x H. destruct (I7 id k x H) as (A1 & A2 & A3 & A4 & A5 & A6). rewrite eupd_neq by congruence. auto 8.
Qed.
Lemma bp_off_inv c e s : (enabled s = true -> has_rt c = false) -> inv c s -> inv c (set_bp e false s).
Proof.
  intros E [I1 I2 I3 I4 I5 I6 I7 I8 I9 I10 I11 I12]. constructor; unfold within in *; proj; auto.
  intros x H. destruct (I3 x H) as (A1 & A2 & A3). repeat split; auto. intros En. rewrite E in A2 by exact En. discriminate.
Qed.

Lemma prepare_inv c bad e s : offered s (fst e) = false -> inv c s -> inv c (prepare c bad e s).
Proof.
  intros O I. unfold prepare. destruct (bad e && negb (has_rt c)); [now apply die_inv|].
  set (s1 := if bad e then off s else s).
  assert (O1 : offered s1 (fst e) = false).
  { unfold s1. destruct (bad e); [|exact O]. destruct (off_frame s) as [-> |[_ ->]]; exact O. }
  assert (I1 : inv c s1) by (unfold s1; destruct (bad e); auto using off_inv).
  clearbody s1. cbv zeta. destruct (has_rt c && enabled s1) eqn:X.
  - apply prep_inv; assumption.
  - apply prep_inv; [exact O1|]. apply bp_off_inv; [|exact I1]. intros E. rewrite E, andb_true_r in X. exact X.
Qed.

Lemma prepares_inv c bad o s : offered s o = false -> inv c s -> inv c (each (prepare c bad) (members c o) s).
Proof.
  intros O I. apply (each_inv (fun x => offered x o = false /\ inv c x)); [|auto].
  intros e x J [A B]. apply members_in in J as [J _]. split.
  - destruct (prepare_frame c bad e x) as [F _ _]. decompose [and] F. congruence.
  - apply prepare_inv; [congruence|exact B].
Qed.

Lemma offered_on_inv c o n s :
  (forall e, fst e = o -> snd e < nel c o -> ps s e = true \/ pa s e = true -> enabled s = true -> guard s e = true) ->
  inv c s -> inv c (note (EOffer o n) (set_offered o true s)).
Proof.
  intros G [I1 I2 I3 I4 I5 I6 I7 I8 I9 I10 I11 I12]. constructor; unfold within in *; proj; cbn [pending working in_use]; auto.
  - intros e. unfold fupd. destruct (Nat.eqb_spec (fst e) o) as [E | N]; [|apply I4].
    intros _ H. apply G; [exact E|]. now rewrite <- E.
  - intros e H. destruct (I5 e H) as (A1 & A2 & A3 & A4). repeat split; auto. unfold fupd. destruct (_ =? _); auto.
  - intros id k e H. destruct (I7 id k e H) as (A1 & A2 & A3 & A4 & A5 & A6). repeat split; auto; try apply A1.
    unfold fupd. destruct (_ =? _); auto.
  - intros k e H. destruct (I11 k e H) as [A1 A2]. split; [exact A1|]. unfold fupd. destruct (_ =? _); auto.
Qed.

(** Stopping: every element of the object is idle. *)
Lemma stopped_inv c o s s1 : uframe o s s1 ->
  (forall e, In e (members c o) -> guard s e = true -> forall id, within s e id -> slot s1 id = None) ->
  (forall e, fst e = o -> pc s e = Idle \/ offered s o = false) -> inv c s ->
  inv c (note (EStop o) (set_offered o false s1)).
Proof.
  intros [F1 F2 F3] C Pi [I1 I2 I3 I4 I5 I6 I7 I8 I9 I10 I11 I12]. decompose [and] F1.
  assert (Pc : forall e, fst e = o -> pc s e = Idle).
  { intros e E. destruct (Pi e E) as [H' | H']; [exact H'|]. destruct (pc s e) eqn:P; auto;
      destruct (I5 e) as [X _]; try congruence. }
  assert (Sl : forall id k e, slot s1 id = Some (k, e) -> slot s id = Some (k, e) /\ fst e <> o).
  { intros id k e S1. destruct (F2 id) as [E | [E _]]; [|congruence]. rewrite E in S1. split; [exact S1|].
    intros Eo. destruct (I7 id k e S1) as (A1 & A2 & A3 & A4 & A5 & A6).
    rewrite (C e) in E; [congruence| |exact A5|exact A1]. apply members_in. split; [exact Eo|]. now rewrite <- Eo. }
  constructor; unfold within in *; proj; cbn [pending working in_use].
  - replace (rng s1) with (rng s) by congruence. replace (nxt s1) with (nxt s) by congruence. exact I1.
  - replace (rng s1) with (rng s) by congruence. exact I2.
  - replace (rng s1) with (rng s) by congruence. replace (ps s1) with (ps s) by congruence. replace (pa s1) with (pa s) by congruence.
    replace (bp s1) with (bp s) by congruence. replace (enabled s1) with (enabled s) by congruence. exact I3.
  - intros e. unfold fupd. destruct (Nat.eqb_spec (fst e) o) as [E | N]; [discriminate|].
    destruct (F3 e N) as [_ ->]. replace (offered s1) with (offered s) by congruence.
    replace (ps s1) with (ps s) by congruence. replace (pa s1) with (pa s) by congruence.
    replace (enabled s1) with (enabled s) by congruence. apply I4.
  - intros e Hp. replace (pc s1) with (pc s) in Hp by congruence. destruct (I5 e Hp) as (A1 & A2 & A3 & A4).
    assert (N : fst e <> o) by (intros E; apply Hp; auto). rewrite fupd_neq by exact N. destruct (F3 e N) as [_ ->].
    replace (rng s1) with (rng s) by congruence. replace (offered s1) with (offered s) by congruence. auto.
  - replace (pc s1) with (pc s) by congruence. replace (rng s1) with (rng s) by congruence. replace (out s1) with (out s) by congruence.
    replace (ntraces s1) with (ntraces s) by congruence. exact I6.
  - intros id k e S1. destruct (Sl id k e S1) as [S2 N]. destruct (I7 id k e S2) as (A1 & A2 & A3 & A4 & A5 & A6).
    destruct (F3 e N) as [_ ->]. rewrite fupd_neq by exact N.
    replace (rng s1) with (rng s) by congruence. replace (offered s1) with (offered s) by congruence.
    replace (ntraces s1) with (ntraces s) by congruence. replace (out s1) with (out s) by congruence.
    replace (pc s1) with (pc s) by congruence. auto 8.
  - replace (rng s1) with (rng s) by congruence. replace (out s1) with (out s) by congruence.
    replace (ntraces s1) with (ntraces s) by congruence. exact I8.
  - replace (log s1) with (log s) by congruence. replace (out s1) with (out s) by congruence. exact I9.
  - replace (log s1) with (log s) by congruence. replace (out s1) with (out s) by congruence. exact I10.
  - replace (log s1) with (log s) by congruence. intros k e. destruct (Nat.eqb_spec o (fst e)) as [E | N]; [discriminate|].
    rewrite fupd_neq by congruence. replace (offered s1) with (offered s) by congruence. apply I11.
  - intros id k e S1 Ho. destruct (Sl id k e S1) as [S2 N]. replace (log s1) with (log s) by congruence.
    replace (out s1) with (out s) in Ho by congruence. destruct (Nat.eqb_spec o (fst e)) as [E | _]; [congruence|]. eauto.
Qed.

(** *** Sending *)

Lemma slot_none_inv c id s : inv c s -> inv c (set_slot id None s).
Proof.
  intros [I1 I2 I3 I4 I5 I6 I7 I8 I9 I10 I11 I12]. constructor; unfold within in *; proj; auto.
  - intros j k e. unfold fupd. destruct (Nat.eqb_spec j id); [discriminate|apply I7].
  - intros j k e. unfold fupd. destruct (Nat.eqb_spec j id); [discriminate|apply I12].
Qed.

Lemma points_inv c e a b s : (a = true -> ps s e = true) -> (b = true -> pa s e = true) -> inv c s -> inv c (set_points e a b s).
Proof.
  intros Ha Hb [I1 I2 I3 I4 I5 I6 I7 I8 I9 I10 I11 I12]. constructor; unfold within in *; proj; auto.
  - intros x. unfold eupd. destruct (el_eqb_spec x e) as [-> | N]; [|apply I3].
    intros [H | H]; apply I3; auto.
  - intros x O M. unfold eupd. destruct (el_eqb_spec x e) as [-> | N]; [|apply I4; assumption].
    intros [H | H]; apply I4; auto.
Qed.
Lemma point_off_inv c e a s : inv c s -> inv c (point_off e a s).
Proof. intros I. unfold point_off. destruct a; apply points_inv; auto; discriminate. Qed.
Lemma points_off_inv c e s : inv c s -> inv c (points_off e s).
Proof. intros I. apply points_inv; auto; discriminate. Qed.

Definition placed (p : pcs) : bool := match p with Placed _ _ _ _ _ => true | _ => false end.

Lemma go_inv c e p s : placed p = false ->
  (p <> Idle -> offered s (fst e) = true /\ snd e < nel c (fst e) /\ 0 < snd (rng s e) /\ guard s e = true) ->
  (forall id k, slot s id = Some (k, e) -> In (k, id, e) (out s)) -> inv c s -> inv c (go e p s).
Proof.
  intros Hp G O [I1 I2 I3 I4 I5 I6 I7 I8 I9 I10 I11 I12]. constructor; unfold within in *; proj; auto.
  - intros x. unfold eupd. destruct (el_eqb_spec x e) as [-> | N]; [exact G|apply I5].
  - intros x f n a id k. unfold eupd at 1. destruct (el_eqb_spec x e) as [-> | N]; [intros ->; discriminate|].
    intros H. destruct (I6 x f n a id k H) as (A1 & A2 & A3 & A4). repeat split; auto; try apply A2.
    intros y f' n' a' id'. unfold eupd. destruct (el_eqb_spec y e) as [-> | N']; [intros ->; discriminate|apply A4].
  - intros id k x H. destruct (I7 id k x H) as (A1 & A2 & A3 & A4 & A5 & A6). repeat split; auto; try apply A1.
    destruct (el_dec x e) as [-> | N]; [left; auto|]. destruct A6 as [A6 | (f & n & a & A6)]; [auto|].
    right. exists f, n, a. now rewrite eupd_neq.
Qed.

(** When no send is in progress on [e], its slots are the tracer's. *)
Lemma slot_out c s e : inv c s -> placed (pc s e) = false -> forall id k, slot s id = Some (k, e) -> In (k, id, e) (out s).
Proof.
  intros I P id k H. destruct (i_slot c s I id k e H) as (_ & _ & _ & _ & _ & [A | (f & n & a & A)]); [exact A|].
  rewrite A in P. discriminate.
Qed.

Lemma send_inv c e a r s : offered s (fst e) = true -> snd e < nel c (fst e) -> pc s e = Idle -> inv c s -> inv c (send c e a r s).
Proof.
  intros O M P I. unfold send. destruct (if a then pa s e else ps s e) eqn:X; [|exact I].
  assert (Y : ps s e = true \/ pa s e = true) by (destruct a; auto).
  destruct (tlog s e); [|now apply die_inv]. destruct (enabled s) eqn:E; [|now apply points_off_inv].
  destruct (i_pts c s I e Y) as (Z & _). pose proof (i_grd c s I e O M Y E) as G.
  assert (S : forall s1 f n, inv c s1 -> offered s1 = offered s -> rng s1 = rng s -> guard s1 = guard s -> slot s1 = slot s ->
             out s1 = out s -> inv c (begin (inl e) (go e (Meta f n a) s1))).
  { intros s1 f n I1 H1 H2 H3 H4 H5. apply begin_inv, go_inv; auto.
    - intros _. rewrite H1, H2, H3. auto.
    - rewrite H4, H5. apply (slot_out c); [exact I|now rewrite P]. }
  destruct (hmap s (inst c (fst e))) as [n|]; [apply S; auto|].
  destruct (if dummy c e then cmap s (inst c (fst e)) else None) as [n|]; [|now apply point_off_inv]. cbv zeta.
  assert (I1 : inv c (note (ERetry n) s)) by (apply note_minor_inv; auto).
  destruct r; auto using point_off_inv, points_off_inv, cmap_inv, off_inv.
  apply S; auto. now apply hmap_inv.
Qed.

Lemma first_free_spec f : forall n a id, first_free f a n = Some id -> a <= id < a + n /\ f id = None.
Proof.
  induction n as [|n IH]; cbn; intros a id H; [discriminate|]. destruct (f a) eqn:E.
  - apply IH in H as [H1 H2]. split; [lia|exact H2].
  - injection H as <-. split; [lia|exact E].
Qed.
Lemma first_free_none f : forall n a, first_free f a n = None -> forall id, a <= id < a + n -> f id <> None.
Proof.
  induction n as [|n IH]; cbn; intros a H id R; [lia|]. destruct (f a) eqn:E; [|discriminate].
  destruct (Nat.eq_dec id a) as [-> | N]; [congruence|]. apply (IH (S a)); [exact H|lia].
Qed.

Lemma placed_inv c e f n a id s : pc s e <> Idle -> placed (pc s e) = false -> within s e id -> slot s id = None -> inv c s ->
  inv c (next_trace (set_slot id (Some (ntraces s, e)) (go e (Placed f n a id (ntraces s)) s))).
Proof.
  intros P P1 W F I. pose proof (slot_out c s e I P1) as SO. destruct I as [I1 I2 I3 I4 I5 I6 I7 I8 I9 I10 I11 I12].
  destruct (I5 e P) as (O & M & R & G).
  constructor; unfold within in *; proj; auto.
  - intros x. unfold eupd. destruct (el_eqb_spec x e) as [-> | N]; [intros _; auto|apply I5].
  - intros x f' n' a' id' k. unfold eupd at 1. destruct (el_eqb_spec x e) as [-> | N].
    + intros [= -> -> -> -> <-]. repeat split; try lia.
      * intros j x H. apply I8 in H. lia.
      * intros x f1 n1 a1 id1. unfold eupd. destruct (el_eqb_spec x e) as [-> | N]; [auto|]. intros H. apply I6 in H. lia.
    + intros H. destruct (I6 x f' n' a' id' k H) as (A1 & A2 & A3 & A4). repeat split; auto; try apply A2.
      intros y f1 n1 a1 id1. unfold eupd. destruct (el_eqb_spec y e) as [-> | N']; [|apply A4]. intros [= _ _ _ _ E]. lia.
  - intros j k x. unfold fupd. destruct (Nat.eqb_spec j id) as [-> | N].
    + intros [= <- <-]. repeat split; auto; try apply W. right. exists f, n, a. now rewrite eupd_eq.
    + intros H. destruct (I7 j k x H) as (A1 & A2 & A3 & A4 & A5 & A6). repeat split; auto; try apply A1.
      destruct (el_dec x e) as [-> | N']; [left; auto|]. destruct A6 as [A6 | (f1 & n1 & a1 & A6)]; [auto|].
      right. exists f1, n1, a1. now rewrite eupd_neq.
  - intros k j x H. destruct (I8 k j x H) as (A1 & A2 & A3). repeat split; auto; try apply A2; eapply A3; eauto.
  - intros j k x. unfold fupd. destruct (Nat.eqb_spec j id) as [-> | N]; [|apply I12].
    intros [= <- <-] H. apply I8 in H. lia.
Qed.

Lemma emplace_inv c e s s' : inv c s -> emplace c e s = Some s' -> inv c s'.
Proof.
  intros I. unfold emplace. destruct (pc s e) as [|f n a| |] eqn:P; try discriminate.
  destruct (nxt s <=? fst (rng s e)); [intros [= <-]; now apply die_inv|].
  destruct (first_free (slot s) (fst (rng s e)) (snd (rng s e))) as [id|] eqn:F; intros [= <-].
  - apply first_free_spec in F as [F1 F2]. apply placed_inv; auto; rewrite P; discriminate || reflexivity.
  - apply note_minor_inv; [reflexivity|]. apply loss_inv, end_inv, go_inv; auto; [congruence|].
    apply (slot_out c); [exact I|now rewrite P].
Qed.

Lemma traced_inv c e f n a id k p s : pc s e = Placed f n a id k -> p <> Idle -> placed p = false -> inv c s ->
  inv c (note (ETraced k e id n) (set_out ((k, id, e) :: out s) (go e p s))).
Proof.
  intros P Pi Pp I. assert (P1 : pc s e <> Idle) by congruence.
  destruct I as [I1 I2 I3 I4 I5 I6 I7 I8 I9 I10 I11 I12].
  destruct (I5 e P1) as (O & M & R & G). destruct (I6 _ _ _ _ _ _ P) as (B1 & B2 & B3 & B4).
  constructor; unfold within in *; proj; auto.
  - intros x. unfold eupd. destruct (el_eqb_spec x e) as [-> | N]; [auto|apply I5].
  - intros x f' n' a' id' k'. unfold eupd at 1. destruct (el_eqb_spec x e) as [-> | N]; [intros ->; discriminate|].
    intros H. destruct (I6 x f' n' a' id' k' H) as (A1 & A2 & A3 & A4). repeat split; auto; try apply A2.
    + intros j y [[= -> -> ->]|J]; [|eapply A3; eauto]. apply N. eapply B4; eauto.
    + intros y f1 n1 a1 id1. unfold eupd. destruct (el_eqb_spec y e) as [-> | N']; [intros ->; discriminate|apply A4].
  - intros j k' x H. destruct (I7 j k' x H) as (A1 & A2 & A3 & A4 & A5 & A6). repeat split; auto; try apply A1.
    destruct A6 as [A6 | (f1 & n1 & a1 & A6)]; [left; now right|].
    destruct (el_dec x e) as [-> | N']; [left; left; congruence|]. right. exists f1, n1, a1. now rewrite eupd_neq.
  - intros k' j x [[= <- <- <-] | H].
    + split; [exact B1|]. split; [exact B2|]. intros id' e' [[= <- <-] | J]; [auto|]. now apply B3 in J.
    + destruct (I8 k' j x H) as (A1 & A2 & A3). split; [exact A1|]. split; [exact A2|].
      intros id' e' [[= -> -> ->] | J]; [now apply B3 in H|]. eapply A3; eauto.
  - intros k' x. cbn [pending]. destruct ((k =? k') && el_eqb e x) eqn:E.
    + apply andb_true_iff in E as [E1 E2]. apply Nat.eqb_eq in E1. destruct (el_eqb_spec e x) as [<- |]; [|discriminate]. subst k'.
      split; [intros _; exists id; now left|auto].
    + rewrite I9. split; intros [j H]; exists j; [now right|]. destruct H as [[= -> -> ->] | H]; [|exact H].
      rewrite Nat.eqb_refl, el_eqb_refl in E. discriminate.
  - intros k' j x H. cbn [working]. destruct (el_eqb_spec e x) as [<- | N].
    + destruct H as [[= <- _] | H]; [now left|]. right. eauto.
    + destruct H as [[= _ _ E] | H]; [congruence|eauto].
  - intros k' x. cbn [pending in_use]. destruct ((k =? k') && el_eqb e x) eqn:E; [|apply I11].
    apply andb_true_iff in E as [E1 E2]. destruct (el_eqb_spec e x) as [<- |]; [|discriminate]. auto.
  - intros j k' x H Ho. cbn [in_use]. destruct ((k =? k') && el_eqb e x) eqn:E; [reflexivity|].
    destruct Ho as [[= -> -> ->] | Ho]; [rewrite Nat.eqb_refl, el_eqb_refl in E; discriminate|eauto].
Qed.

Lemma call_inv c e t s s' : inv c s -> call e t s = Some s' -> inv c s'.
Proof.
  intros I. unfold call. destruct (pc s e) as [| |f n a id k|] eqn:P; try discriminate. cbv zeta.
  assert (N : inv c (go e (Fin a t) (set_slot id None s))).
  { apply go_inv; [reflexivity| | |now apply slot_none_inv].
    - intros _. proj. apply (i_pc c s I). congruence.
    - intros j k'. proj. unfold fupd. destruct (Nat.eqb_spec j id) as [-> | N]; [discriminate|]. intros H.
      destruct (i_slot c s I j k' e H) as (_ & _ & _ & _ & _ & [A | (f1 & n1 & a1 & A)]); [exact A|congruence]. }
  destruct t; intros [= <-].
  - apply note_minor_inv; [reflexivity|]. apply (traced_inv c e f n a id k (Fin a TOk) s); auto; discriminate.
  - apply note_minor_inv; [reflexivity|]. exact N.
  - apply note_minor_inv; [reflexivity|]. exact N.
  - exact N.
Qed.

Lemma process_inv c t s : inv c s -> inv c (fst (process t s)).
Proof.
  intros I. unfold process. destruct t; cbn [fst]; auto using off_inv, loss_inv, fails_inv;
    destruct (_ <=? _)%N; cbn [fst]; auto using off_inv, loss_inv, fails_inv.
Qed.
Lemma finish_inv c e s s' : inv c s -> finish e s = Some s' -> inv c s'.
Proof.
  intros I. unfold finish. destruct (pc s e) as [| | |a t] eqn:P; try discriminate.
  assert (J : inv c (end_ (inl e) (go e Idle s))).
  { apply end_inv, go_inv; auto; [congruence|]. apply (slot_out c); [exact I|now rewrite P]. }
  apply (process_inv c t) in J. destruct (process t _) as [s1 v]. intros [= <-]. cbn [fst] in J.
  destruct v; auto using point_off_inv, points_off_inv.
Qed.
Lemma lsend_inv c t s s' : inv c s -> lsend t s = Some s' -> inv c s'.
Proof.
  intros I. unfold lsend. destruct (lpc s t); try discriminate. intros [= <-]. destruct (enabled s); auto using begin_inv, lgo_inv.
Qed.
Lemma lcall_inv c t r s s' : inv c s -> lcall t r s = Some s' -> inv c s'.
Proof.
  intros I. unfold lcall. destruct (lpc s t); try discriminate. intros [= <-].
  destruct r; auto using lgo_inv, note_minor_inv.
Qed.
Lemma lfinish_inv c t s s' : inv c s -> lfinish t s = Some s' -> inv c s'.
Proof.
  intros I. unfold lfinish. destruct (lpc s t); try discriminate. intros [= <-].
  apply process_inv. auto using end_inv, lgo_inv.
Qed.

Lemma find_trace_spec k : forall l id, find_trace k l = Some id -> exists e, In (k, id, e) l.
Proof.
  induction l as [|[[j i] e] l IH]; cbn; intros id H; [discriminate|].
  destruct (Nat.eqb_spec j k) as [-> | N]; [injection H as <-; eauto|]. destruct (IH id H) as [x X]. eauto.
Qed.
Lemma find_trace_none k : forall l, find_trace k l = None -> forall id e, ~ In (k, id, e) l.
Proof.
  induction l as [|[[j i] e] l IH]; cbn; intros H id x; [auto|]. intros [E | J].
  - injection E as -> -> ->. now rewrite Nat.eqb_refl in H.
  - destruct (j =? k); [discriminate|]. eapply IH; eauto.
Qed.

Lemma done_inv c k s s' : inv c s -> done k s = Some s' -> inv c s'.
Proof.
  intros I. unfold done. destruct (find_trace k (out s)) as [id|] eqn:F; [|discriminate]. intros [= <-].
  apply find_trace_spec in F as [e0 F].
  destruct I as [I1 I2 I3 I4 I5 I6 I7 I8 I9 I10 I11 I12].
  destruct (I8 k id e0 F) as (K1 & K2 & K3).
  assert (FI : forall j i x, In (j, i, x) (filter (fun x => negb (fst (fst x) =? k)) (out s)) <-> In (j, i, x) (out s) /\ j <> k).
  { intros. rewrite filter_In. cbn [fst]. destruct (Nat.eqb_spec j k); cbn; split; intros [A B]; auto; try discriminate; lia. }
  constructor; unfold within in *; proj; auto.
  - intros x f n a i j H. destruct (I6 x f n a i j H) as (A1 & A2 & A3 & A4). repeat split; auto; try apply A2.
    intros i' y J. apply FI in J as [J _]. eapply A3; eauto.
  - intros i j x. unfold fupd. destruct (Nat.eqb_spec i id) as [-> | N]; [discriminate|]. intros H.
    destruct (I7 i j x H) as (A1 & A2 & A3 & A4 & A5 & A6). repeat split; auto; try apply A1.
    destruct A6 as [A6 | A6]; [left|right; exact A6]. apply FI. split; [exact A6|]. intros ->. destruct (K3 _ _ A6); auto.
  - intros j i x J. apply FI in J as [J _]. destruct (I8 j i x J) as (A1 & A2 & A3). repeat split; auto; try apply A2;
      apply FI in H as [H _]; eapply A3; eauto.
  - intros j x. cbn [pending]. destruct (Nat.eqb_spec k j) as [<- | N].
    + split; [discriminate|]. intros [i H]. apply FI in H. lia.
    + rewrite I9. split; intros [i H]; exists i; [apply FI; auto|apply FI in H; tauto].
  - intros j i x H. apply FI in H as [H N]. cbn [working]. apply filter_In. split; [eauto|].
    apply Nat.eqb_neq in N. now rewrite N.
  - intros j x. cbn [pending in_use]. destruct (k =? j); [discriminate|apply I11].
  - intros i j x. unfold fupd. destruct (Nat.eqb_spec i id) as [-> | N]; [discriminate|]. intros H Ho. apply FI in Ho as [Ho N'].
    cbn [in_use]. destruct (Nat.eqb_spec k j); [congruence|eauto].
Qed.

(** *** All steps *)

Lemma unset_offered_inv c x o s : offered s o = false -> inv c (note x (set_offered o false s)) -> inv c (note x s).
Proof.
  intros O [I1 I2 I3 I4 I5 I6 I7 I8 I9 I10 I11 I12].
  assert (F : forall p, fupd (offered s) o false p = offered s p) by (intros p; unfold fupd; destruct (Nat.eqb_spec p o); congruence).
  constructor; unfold within in *; proj; auto; intros *; rewrite <- ?F; eauto.
Qed.

Lemma register_frame i n r s : let s' := register i n r s in
  offered s' = offered s /\ created s' = created s /\ pc s' = pc s /\ rng s' = rng s /\ ps s' = ps s /\ pa s' = pa s /\
  guard s' = guard s /\ slot s' = slot s /\ out s' = out s.
Proof.
  unfold register. destruct (enabled s) eqn:E; [|cbn; repeat split].
  destruct r; cbv zeta; unfold off; proj; rewrite ?E; repeat match goal with |- context [match ?x with _ => _ end] => destruct x end;
    cbn; repeat split.
Qed.
Lemma unregister_frame i t s : let s' := unregister i t s in
  offered s' = offered s /\ created s' = created s /\ pc s' = pc s /\ rng s' = rng s /\ ps s' = ps s /\ pa s' = pa s /\
  guard s' = guard s /\ slot s' = slot s /\ out s' = out s /\ down s' = down s.
Proof.
  unfold unregister. destruct (enabled s) eqn:E; [|cbn; repeat split].
  destruct (hmap s i); cbv zeta; [|cbn; repeat split]. destruct t; unfold off; proj; rewrite ?E; cbn; repeat split.
Qed.

Lemma offer_inv c o r bad ok s : offered s o = false -> inv c s -> inv c (offer c o r bad ok s).
Proof.
  intros O I. unfold offer. cbv zeta.
  set (s1 := if any_point c o s then register (inst c o) (noffers s) r (next_offer o s) else next_offer o s).
  assert (I1 : inv c s1 /\ offered s1 o = false).
  { unfold s1. destruct (any_point c o s).
    - split; [apply register_inv, next_offer_inv, I|]. destruct (register_frame (inst c o) (noffers s) r (next_offer o s)) as (-> & _). exact O.
    - split; [apply next_offer_inv, I|exact O]. }
  clearbody s1. destruct I1 as [I1 O1]. destruct (down s1) eqn:D1; [exact I1|].
  pose proof (prepares_inv c bad o s1 O1 I1) as I2. set (s2 := each (prepare c bad) (members c o) s1) in *.
  assert (O2 : offered s2 o = false).
  { destruct (prepares_frame c bad o s1) as [F _ _]. fold s2 in F. decompose [and] F. congruence. }
  destruct (down s2) eqn:D2; [exact I2|]. destruct ok.
  - apply offered_on_inv; [|exact I2]. intros e E M Y En.
    assert (Hg : guard s2 e = bp s2 e).
    { assert (Q : forall x, In x (members c o) -> guard s2 x = bp s2 x).
      { intros x Hx. unfold s2 in *. refine (proj2 (each_all (fun _ => True) (fun x s => guard s x = bp s x) (prepare c bad) (members c o) s1 _ _ _ Logic.I D1 D2) x Hx); auto.
        - intros y s' _ _ _ D. unfold prepare in *. destruct (bad y && negb (has_rt c)); [discriminate|].
          cbv zeta. proj. rewrite eupd_eq. destruct (has_rt c && enabled _); reflexivity.
        - intros y z s' _ _ _ _ H. unfold prepare. destruct (bad z && negb (has_rt c)); [exact H|].
          assert (J : guard (if bad z then off s' else s') y = bp (if bad z then off s' else s') y).
          { destruct (bad z); [|exact H]. destruct (off_frame s') as [-> |[_ ->]]; exact H. }
          set (s3 := if bad z then off s' else s') in *. clearbody s3. cbv zeta. destruct (has_rt c && enabled s3); proj.
          + unfold eupd. destruct (el_eqb_spec y z) as [-> | N]; [reflexivity|exact J].
          + unfold eupd. destruct (el_eqb_spec y z) as [-> | N]; [rewrite el_eqb_refl; reflexivity|exact J]. }
      apply Q. apply members_in. auto. }
    rewrite Hg. apply (i_pts c s2 I2 e Y). exact En.
  - apply unset_offered_inv with (o := o).
    + destruct (unprepares_frame c o s2) as [F _ _]. decompose [and] F. congruence.
    + apply stopped_inv with (s := s2); [apply unprepares_frame| |auto|exact I2].
      intros e J Ge id W. apply (unprepares_clear c o s2 D2 e J); assumption.
Qed.

Lemma stop_inv c o t s : down s = None -> (forall e, fst e = o -> snd e < nel c o -> pc s e = Idle) -> inv c s -> inv c (stop c o t s).
Proof.
  intros D P I. unfold stop. cbv zeta. set (s1 := each unprepare (members c o) s).
  assert (J : inv c (note (EStop o) (set_offered o false s1))).
  { apply stopped_inv with (s := s); [apply unprepares_frame| | |exact I].
    - intros e J Ge id W. apply (unprepares_clear c o s D e J); assumption.
    - intros e E. destruct (pc s e) eqn:X; auto; (right; exfalso;
        assert (A : pc s e <> Idle) by congruence; destruct (i_pc c s I e A) as (_ & M & _); rewrite E in M; rewrite (P e E M) in X; discriminate). }
  destruct (any_point c o s1); [|exact J]. unfold unregister.
  destruct (enabled s1) eqn:En; [|exact J].
  destruct (hmap s1 (inst c o)) as [n|]; [|exact (cmap_inv c _ _ _ J)].
  assert (K : inv c (note (EStop o) (set_offered o false (note (EUnreg n) s1)))).
  { destruct J as [I1 I2 I3 I4 I5 I6 I7 I8 I9 I10 I11 I12]. constructor; assumption. }
  destruct t; [|exact (hmap_inv c _ _ _ K)]. cbv zeta. unfold off. proj. rewrite En.
  destruct K as [I1 I2 I3 I4 I5 I6 I7 I8 I9 I10 I11 I12]. constructor; unfold within in *; proj; auto; try discriminate.
  intros e H. destruct (I3 e H) as (A1 & A2 & _). repeat split; auto. discriminate.
Qed.

(** *** What a step leaves alone *)

Lemma nframe_step c o s : inv c s -> fresh c s -> created s o = false ->
  let s' := set_created o (each (new_element c) (members c o) s) in
  inv c s' /\ nframe s (each (new_element c) (members c o) s) /\
  forall x, fst x <> o -> rng s' x = rng s x /\ ps s' x = ps s x /\ pa s' x = pa s x.
Proof.
  intros I F C. destruct (new_elements_inv c (members c o) s) as (G1 & G2 & G3).
  - apply members_nodup.
  - exact I.
  - intros e J. apply members_in in J as [J _]. split; [apply (f_new c s F); now rewrite J|].
    destruct (offered s (fst e)) eqn:O; [|reflexivity]. apply (f_off c s F) in O. congruence.
  - cbv zeta. split; [destruct G1; constructor; assumption|]. split; [exact G2|].
    intros x N. apply G3. intros J. apply members_in in J as [J _]. auto.
Qed.

(** Steps other than constructing, offering and stopping. *)
Definition lesser (l : label) : bool := match l with Create _ | Offer _ _ _ _ | Stop _ _ => false | _ => true end.

Record lframe (s s' : st) : Prop := {
  l_same : nxt s' = nxt s /\ rng s' = rng s /\ bp s' = bp s /\ tlog s' = tlog s /\ guard s' = guard s /\ created s' = created s /\
           offered s' = offered s /\ cur s' = cur s /\ noffers s' = noffers s;
  l_ps : forall e, ps s' e = true -> ps s e = true;
  l_pa : forall e, pa s' e = true -> pa s e = true;
  l_en : enabled s' = true -> enabled s = true
}.
Lemma lframe_refl s : lframe s s.
Proof. constructor; auto 10. Qed.
Lemma lframe_trans a b d : lframe a b -> lframe b d -> lframe a d.
Proof. intros [A1 A2 A3 A4] [B1 B2 B3 B4]. decompose [and] A1. decompose [and] B1. constructor; auto. repeat split; congruence. Qed.
Lemma lframe_off s : lframe s (off s).
Proof. destruct (off_frame s) as [-> |[_ ->]]; constructor; proj; auto 10; discriminate. Qed.
Lemma lframe_points e a b s : (a = true -> ps s e = true) -> (b = true -> pa s e = true) -> lframe s (set_points e a b s).
Proof.
  intros A B. constructor; proj; auto 10; intros x; unfold eupd; destruct (el_eqb_spec x e) as [-> |]; auto.
Qed.
Lemma lframe_point e a s : lframe s (point_off e a s).
Proof. unfold point_off. destruct a; apply lframe_points; auto; discriminate. Qed.
Lemma lframe_all e s : lframe s (points_off e s).
Proof. apply lframe_points; discriminate. Qed.

Ltac same := constructor; proj; auto 10.

Lemma lframe_process t s : lframe s (fst (process t s)).
Proof.
  unfold process. destruct t; cbn [fst]; [same| | |apply lframe_off];
    (destruct (_ <=? _)%N; cbn [fst]; [eapply lframe_trans; [|apply lframe_off]; same|same]).
Qed.

Lemma lesser_frame c s l s' : lesser l = true -> step c s l = Some s' -> lframe s s'.
Proof.
  intros L. unfold step. destruct (down s); [discriminate|]. destruct l; try discriminate L.
  - destruct (_ && _ && _); [|discriminate]. intros [= <-]. unfold send.
    destruct (if a then _ else _); [|apply lframe_refl]. destruct (tlog s e); [|same].
    destruct (enabled s) eqn:E; [|apply lframe_all]. destruct (hmap s _); [same|].
    destruct (if dummy c e then _ else _); [|apply lframe_point]. cbv zeta. destruct r.
    + same.
    + eapply lframe_trans; [|apply lframe_point]. same.
    + eapply lframe_trans; [|apply lframe_point]. same.
    + eapply lframe_trans; [|apply lframe_all]. eapply lframe_trans; [|apply lframe_off]. same.
    + eapply lframe_trans; [|apply lframe_point]. same.
  - unfold emplace. destruct (pc s e); try discriminate. destruct (_ <=? _); [intros [= <-]; same|].
    destruct (first_free _ _ _); intros [= <-]; same.
  - unfold call. destruct (pc s e); try discriminate. cbv zeta. destruct t; intros [= <-]; same.
  - unfold finish. destruct (pc s e); try discriminate. destruct (process _ _) as [s1 v] eqn:P. intros [= <-].
    assert (F : lframe s s1).
    { change s1 with (fst (s1, v)). rewrite <- P. eapply lframe_trans; [|apply lframe_process]. same. }
    destruct v; [exact F| |]; (eapply lframe_trans; [exact F|]); [apply lframe_point|apply lframe_all].
  - destruct (has_rt c); [|discriminate]. unfold lsend. destruct (lpc s t); try discriminate. intros [= <-].
    destruct (enabled s); [same|apply lframe_refl].
  - unfold lcall. destruct (lpc s t); try discriminate. intros [= <-]. destruct r; same.
  - unfold lfinish. destruct (lpc s t); try discriminate. intros [= <-]. eapply lframe_trans; [|apply lframe_process]. same.
  - unfold done. destruct (find_trace _ _); [|discriminate]. intros [= <-]. same.
  - destruct (has_rt c); [|discriminate]. intros [= <-]. apply lframe_off.
Qed.

(** Offering leaves the other objects alone. *)
Lemma offer_frame c o r bad ok s :
  let s' := offer c o r bad ok s in
  created s' = created s /\ rng s' = rng s /\ nxt s' = nxt s /\ ps s' = ps s /\ pa s' = pa s /\ pc s' = pc s /\ out s' = out s /\
  ntraces s' = ntraces s /\ loss s' = loss s /\ lpc s' = lpc s /\ busy s' = busy s /\
  (enabled s' = true -> enabled s = true) /\
  (forall p, offered s' p = offered s p \/ p = o) /\ (forall p, p <> o -> cur s' p = cur s p) /\
  (forall e, fst e <> o -> tlog s' e = tlog s e /\ guard s' e = guard s e) /\
  (forall id, slot s' id = slot s id \/ (slot s' id = None /\ exists e, fst e = o /\ within s e id)).
Proof.
  cbv zeta. unfold offer. cbv zeta.
  set (s1 := if any_point c o s then register (inst c o) (noffers s) r (next_offer o s) else next_offer o s).
  assert (F1 : created s1 = created s /\ rng s1 = rng s /\ nxt s1 = nxt s /\ ps s1 = ps s /\ pa s1 = pa s /\ pc s1 = pc s /\
     out s1 = out s /\ ntraces s1 = ntraces s /\ loss s1 = loss s /\ lpc s1 = lpc s /\ busy s1 = busy s /\
     (enabled s1 = true -> enabled s = true) /\ offered s1 = offered s /\ (forall p, p <> o -> cur s1 p = cur s p) /\
     tlog s1 = tlog s /\ guard s1 = guard s /\ slot s1 = slot s).
  { assert (N : forall p, p <> o -> fupd (cur s) o (noffers s) p = cur s p) by (intros; now apply fupd_neq).
    unfold s1. destruct (any_point c o s); [|proj; auto 20]. unfold register. proj. destruct (enabled s) eqn:E; [|proj; rewrite ?E; auto 20].
    destruct r; cbv zeta; unfold off; proj; rewrite ?E; repeat match goal with |- context [match ?x with _ => _ end] => destruct x end;
      proj; rewrite ?E; auto 20. }
  clearbody s1. decompose [and] F1. clear F1.
  destruct (down s1); [repeat match goal with |- _ /\ _ => split end; auto; intros; try (left; congruence); split; congruence|].
  destruct (prepares_frame c bad o s1) as [P1 P2 P3]. set (s2 := each (prepare c bad) (members c o) s1) in *. clearbody s2.
  decompose [and] P1. clear P1.
  assert (En : enabled s2 = true -> enabled s = true) by (destruct P2 as [[_ ->] | (_ & _ & ->)]; [auto|discriminate]).
  assert (G : forall e, fst e <> o -> tlog s2 e = tlog s e /\ guard s2 e = guard s e).
  { intros e N. destruct (P3 e N) as (_ & -> & ->). split; congruence. }
  destruct (down s2).
  { repeat match goal with |- _ /\ _ => split end; auto; try congruence; intros; try (left; congruence); try (now apply G).
    replace (cur s2) with (cur s1) by congruence. auto. }
  destruct ok.
  { proj. repeat match goal with |- _ /\ _ => split end; auto; try congruence; intros; try (left; congruence); try (now apply G).
    - unfold fupd. destruct (Nat.eqb_spec p o); [auto|left; congruence].
    - replace (cur s2) with (cur s1) by congruence. auto. }
  destruct (unprepares_frame c o s2) as [U1 U2 U3]. set (s3 := each unprepare (members c o) s2) in *. clearbody s3.
  decompose [and] U1. clear U1. proj.
  repeat match goal with |- _ /\ _ => split end; auto; try congruence; intros.
  - intros. apply En. congruence.
  - left. congruence.
  - replace (cur s3) with (cur s1) by congruence. auto.
  - match goal with N : fst e <> o |- _ => destruct (U3 e N) as [-> ->] end. now apply G.
  - unfold within. destruct (U2 id) as [-> | [-> (e & E1 & E2)]]; [left; congruence|right; split; [reflexivity|]].
    exists e. split; [exact E1|]. replace (rng s) with (rng s2) by congruence. exact E2.
Qed.

Lemma stop_frame c o t s :
  let s' := stop c o t s in
  created s' = created s /\ rng s' = rng s /\ nxt s' = nxt s /\ ps s' = ps s /\ pa s' = pa s /\ pc s' = pc s /\ out s' = out s /\
  ntraces s' = ntraces s /\ loss s' = loss s /\ lpc s' = lpc s /\ busy s' = busy s /\ cur s' = cur s /\ cmap s' = cmap s \/
  created s' = created s /\ rng s' = rng s /\ nxt s' = nxt s /\ ps s' = ps s /\ pa s' = pa s /\ pc s' = pc s /\ out s' = out s /\
  ntraces s' = ntraces s /\ loss s' = loss s /\ lpc s' = lpc s /\ busy s' = busy s /\ cur s' = cur s /\
  cmap s' = fupd (cmap s) (inst c o) None.
Proof.
  cbv zeta. unfold stop. cbv zeta. destruct (unprepares_frame c o s) as [U1 _ _].
  set (s1 := each unprepare (members c o) s) in *. clearbody s1. decompose [and] U1. clear U1.
  destruct (any_point c o s1); [|left; proj; repeat split; congruence].
  unfold unregister. destruct (enabled s1) eqn:E; [|left; proj; repeat split; congruence].
  destruct (hmap s1 (inst c o)).
  - left. destruct t; unfold off; proj; rewrite ?E; proj; repeat split; congruence.
  - right. proj. repeat split; congruence.
Qed.
Lemma stop_frame2 c o t s :
  let s' := stop c o t s in
  (enabled s' = true -> enabled s = true) /\ offered s' = fupd (offered s) o false /\ down s' = down s /\
  (forall e, fst e <> o -> tlog s' e = tlog s e /\ guard s' e = guard s e) /\
  (forall id, slot s' id = slot s id \/ (slot s' id = None /\ exists e, fst e = o /\ within s e id)).
Proof.
  cbv zeta. unfold stop. cbv zeta. destruct (unprepares_frame c o s) as [U1 U2 U3].
  set (s1 := each unprepare (members c o) s) in *. clearbody s1. decompose [and] U1. clear U1.
  assert (G : offered s1 = offered s) by congruence.
  assert (K : enabled s1 = enabled s) by congruence. assert (L : down s1 = down s) by congruence.
  assert (Z : enabled s1 = true -> enabled s = true) by congruence.
  destruct (any_point c o s1); [|proj; rewrite G; auto 10].
  unfold unregister. destruct (enabled s1) eqn:E; [|proj; rewrite G, E; auto 10].
  destruct (hmap s1 (inst c o)); [destruct t|]; unfold off; proj; rewrite ?E; proj; rewrite ?E, G; auto 10.
Qed.

Lemma step_inv c s l s' : inv c s -> fresh c s -> step c s l = Some s' -> inv c s' /\ fresh c s'.
Proof.
  intros I F S. destruct (lesser l) eqn:L.
  - split.
    + unfold step in S. destruct (down s) eqn:D; [discriminate|]. destruct l; try discriminate L.
      * destruct (offered s (fst e) && (snd e <? nel c (fst e)) && idle s e) eqn:X; [|discriminate]. injection S as <-.
        apply andb_true_iff in X as [X X3]. apply andb_true_iff in X as [X1 X2]. apply Nat.ltb_lt in X2.
        apply send_inv; auto. unfold idle in X3. destruct (pc s e); congruence.
      * eapply emplace_inv; eauto.
      * eapply call_inv; eauto.
      * eapply finish_inv; eauto.
      * destruct (has_rt c); [|discriminate]. eapply lsend_inv; eauto.
      * eapply lcall_inv; eauto.
      * eapply lfinish_inv; eauto.
      * eapply done_inv; eauto.
      * destruct (has_rt c); [|discriminate]. injection S as <-. now apply off_inv.
    + destruct (lesser_frame c s l s' L S) as [A B C D]. decompose [and] A. destruct F as [F1 F2]. constructor.
      * intros e Ce. destruct (F1 e) as (G1 & G2 & G3); [congruence|]. split; [congruence|].
        split; [destruct (ps s' e) eqn:X; auto; apply B in X; congruence|destruct (pa s' e) eqn:X; auto; apply C in X; congruence].
      * intros o Ho. replace (created s') with (created s) by congruence. apply F2. congruence.
  - unfold step in S. destruct (down s) eqn:D; [discriminate|]. destruct l; try discriminate L.
    + destruct (created s o) eqn:C; [discriminate|]. injection S as <-.
      destruct (nframe_step c o s I F C) as (G1 & [G2] & G3). split; [exact G1|]. decompose [and] G2.
      destruct F as [F1 F2]. constructor; proj.
      * intros e. unfold fupd. destruct (Nat.eqb_spec (fst e) o) as [E | N]; [discriminate|]. intros Ce.
        destruct (G3 e N) as (X1 & X2 & X3). revert X1 X2 X3. proj. intros -> -> ->. apply F1. congruence.
      * intros p Hp. unfold fupd. destruct (p =? o); [reflexivity|].
        replace (created _) with (created s) by congruence. apply F2. congruence.
    + destruct (created s o && negb (offered s o)) eqn:X; [|discriminate]. injection S as <-.
      apply andb_true_iff in X as [X1 X2]. apply negb_true_iff in X2. split; [now apply offer_inv|].
      destruct (offer_frame c o r bad ok s) as (A1 & A2 & A3 & A4 & A5 & A6 & A7 & A8 & A9 & A10 & A11 & A12 & A13 & _).
      destruct F as [F1 F2]. constructor.
      * rewrite A1, A2, A4, A5. exact F1.
      * rewrite A1. intros p Hp. destruct (A13 p) as [E | ->]; [apply F2; congruence|exact X1].
    + destruct (offered s o && forallb (idle s) (members c o)) eqn:X; [|discriminate]. injection S as <-.
      apply andb_true_iff in X as [X1 X2]. rewrite forallb_forall in X2. split.
      * apply stop_inv; auto. intros e E M. specialize (X2 e). unfold idle in X2. destruct (pc s e); auto;
          (assert (false = true) by (apply X2, members_in; auto); discriminate).
      * destruct (stop_frame2 c o t s) as (_ & B2 & _). destruct F as [F1 F2]. constructor.
        -- destruct (stop_frame c o t s) as [A | A]; decompose [and] A;
             replace (created (stop c o t s)) with (created s) by congruence; replace (rng (stop c o t s)) with (rng s) by congruence;
             replace (ps (stop c o t s)) with (ps s) by congruence; replace (pa (stop c o t s)) with (pa s) by congruence; exact F1.
        -- rewrite B2. intros p. unfold fupd. destruct (p =? o); [discriminate|]. intros Hp.
           destruct (stop_frame c o t s) as [A | A]; decompose [and] A;
             replace (created (stop c o t s)) with (created s) by congruence; auto.
Qed.

Lemma reach_inv c ok ls s : reach c ok ls s -> inv c s /\ fresh c s.
Proof.
  induction 1 as [|ls s l s' R [I F] O S]; [split; [apply init_inv|apply init_fresh]|]. eapply step_inv; eauto.
Qed.

(** ** C89: samples given to the tracer *)

Record pinv (s : st) : Prop := {
  p_out : forall k id e, In (k, id, e) (out s) -> offered s (fst e) = true -> slot s id = Some (k, e);
  p_placed : forall e f n a id k, pc s e = Placed f n a id k -> slot s id = Some (k, e)
}.

(** Slots cleared for an object that is not offered any more. *)
Lemma pinv_clear c o s s' : inv c s -> pinv s -> out s' = out s -> pc s' = pc s ->
  (forall p, p <> o -> offered s' p = offered s p) ->
  (forall k id e, In (k, id, e) (out s) -> fst e = o -> offered s' o = false) ->
  (forall e, fst e = o -> pc s e = Idle) ->
  (forall id, slot s' id = slot s id \/ (slot s' id = None /\ exists e, fst e = o /\ within s e id)) -> pinv s'.
Proof.
  intros I [P1 P2] Eo Ep Of No Pi Sl. constructor.
  - rewrite Eo. intros k id e J Ho. destruct (Nat.eq_dec (fst e) o) as [E | N].
    { rewrite E, (No k id e J E) in Ho. discriminate. }
    rewrite Of in Ho by exact N. pose proof (P1 k id e J Ho) as S. destruct (Sl id) as [-> | [_ (x & X1 & X2)]]; [exact S|].
    destruct (i_slot c s I id k e S) as (W & _). rewrite (i_dis c s I e x id W X2) in N. contradiction.
  - rewrite Ep. intros e f n a id k H. pose proof (P2 e f n a id k H) as S. destruct (Sl id) as [-> | [_ (x & X1 & X2)]]; [exact S|].
    destruct (i_slot c s I id k e S) as (W & _). pose proof (i_dis c s I e x id W X2) as E. subst x. rewrite (Pi e X1) in H. discriminate.
Qed.

(** Nothing relevant changes. *)
Lemma pinv_same s s' : pinv s -> out s' = out s -> slot s' = slot s -> offered s' = offered s ->
  (forall e, placed (pc s' e) = true -> pc s' e = pc s e) -> pinv s'.
Proof.
  intros [P1 P2] A B C D. constructor.
  - rewrite A, B, C. exact P1.
  - rewrite B. intros e f n a id k H. apply (P2 e f n a id k). rewrite <- D; [exact H|]. now rewrite H.
Qed.

Lemma off_same s : out (off s) = out s /\ slot (off s) = slot s /\ offered (off s) = offered s /\ pc (off s) = pc s.
Proof. unfold off. destruct (enabled s); auto. Qed.
Lemma process_same t s : let s' := fst (process t s) in out s' = out s /\ slot s' = slot s /\ offered s' = offered s /\ pc s' = pc s.
Proof. unfold process, off. destruct t; cbn [fst]; auto; try (destruct (_ <=? _)%N; cbn [fst]); proj; destruct (enabled s); auto. Qed.

Lemma pinv_step c s l s' : inv c s -> pinv s -> prompt s l -> step c s l = Some s' -> fresh c s -> pinv s'.
Proof.
  intros I P Ok S F. unfold step in S. destruct (down s) eqn:D; [discriminate|]. destruct l.
  - destruct (created s o) eqn:C; [discriminate|]. injection S as <-.
    destruct (nframe_step c o s I F C) as (_ & [G2] & _). decompose [and] G2. apply pinv_same with (s := s); proj; auto.
    intros e _. congruence.
  - destruct (created s o && negb (offered s o)) eqn:X; [|discriminate]. injection S as <-.
    apply andb_true_iff in X as [X1 X2]. apply negb_true_iff in X2.
    destruct (offer_frame c o r bad ok s) as (A1 & A2 & A3 & A4 & A5 & A6 & A7 & A8 & A9 & A10 & A11 & A12 & A13 & A14 & A15 & A16).
    apply pinv_clear with (c := c) (o := o) (s := s); auto.
    + intros p N. destruct (A13 p); [assumption|contradiction].
    + intros k id e J E. cbn [prompt] in Ok. rewrite forallb_forall in Ok. specialize (Ok _ J). cbn [snd] in Ok.
      rewrite E, Nat.eqb_refl in Ok. discriminate.
    + intros e E. destruct (pc s e) eqn:Z; auto; (assert (Y : pc s e <> Idle) by congruence; apply (i_pc c s I) in Y as [Y _];
        rewrite E in Y; congruence).
  - destruct (offered s o && forallb (idle s) (members c o)) eqn:X; [|discriminate]. injection S as <-.
    apply andb_true_iff in X as [X1 X2]. rewrite forallb_forall in X2.
    destruct (stop_frame2 c o t s) as (_ & B2 & _ & _ & B5).
    apply pinv_clear with (c := c) (o := o) (s := s); auto.
    + destruct (stop_frame c o t s) as [A | A]; decompose [and] A; assumption.
    + destruct (stop_frame c o t s) as [A | A]; decompose [and] A; assumption.
    + intros p N. rewrite B2. now apply fupd_neq.
    + intros _ _ _ _ _. rewrite B2. apply fupd_eq.
    + intros e E. destruct (pc s e) eqn:Z; auto; (assert (Y : pc s e <> Idle) by congruence; apply (i_pc c s I) in Y as (_ & Y & _);
        rewrite E in Y; assert (W : idle s e = true) by (apply X2, members_in; auto); unfold idle in W; rewrite Z in W; discriminate).
  - destruct (offered s (fst e) && (snd e <? nel c (fst e)) && idle s e) eqn:X; [|discriminate]. injection S as <-.
    assert (Q : out (send c e a r s) = out s /\ slot (send c e a r s) = slot s /\ offered (send c e a r s) = offered s /\
                (pc (send c e a r s) = pc s \/ exists f n, pc (send c e a r s) = eupd (pc s) e (Meta f n a))).
    { unfold send, point_off, points_off, off. repeat match goal with |- context [match ?x with _ => _ end] => destruct x end; proj; eauto 10. }
    destruct Q as (Q1 & Q2 & Q3 & Q4). apply pinv_same with (s := s); auto. intros x. destruct Q4 as [-> | (f & n & ->)]; [auto|].
    unfold eupd. destruct (el_eqb_spec x e); [discriminate|auto].
  - unfold emplace in S. destruct (pc s e) as [|f n a| |] eqn:Pc; try discriminate.
    destruct (nxt s <=? fst (rng s e)); [injection S as <-; apply pinv_same with (s := s); auto|].
    destruct (first_free (slot s) (fst (rng s e)) (snd (rng s e))) as [id|] eqn:Fr; injection S as <-.
    + apply first_free_spec in Fr as [_ Fr]. destruct P as [P1 P2]. constructor; proj.
      * intros k j x J Ho. pose proof (P1 k j x J Ho). rewrite fupd_neq by congruence. assumption.
      * intros x f1 n1 a1 j k. unfold eupd. destruct (el_eqb_spec x e) as [-> | N].
        -- intros [= -> -> -> -> <-]. apply fupd_eq.
        -- intros H. pose proof (P2 _ _ _ _ _ _ H). rewrite fupd_neq by congruence. assumption.
    + apply pinv_same with (s := s); proj; auto. intros x. unfold eupd. destruct (el_eqb_spec x e); [discriminate|auto].
  - unfold call in S. destruct (pc s e) as [| |f n a id k|] eqn:Pc; try discriminate. cbv zeta in S.
    destruct (i_placed c s I e f n a id k Pc) as (K1 & K2 & K3 & K4). destruct P as [P1 P2]. pose proof (P2 _ _ _ _ _ _ Pc) as Sid.
    assert (Cl : pinv (set_slot id None (go e (Fin a t) s))).
    { constructor; proj.
      - intros j i x J Ho. pose proof (P1 j i x J Ho) as Q. unfold fupd. destruct (Nat.eqb_spec i id) as [-> | N]; [|exact Q].
        rewrite Sid in Q. injection Q as -> ->. now apply K3 in J.
      - intros x f1 n1 a1 j k1. unfold eupd. destruct (el_eqb_spec x e) as [-> | N]; [discriminate|]. intros H.
        pose proof (P2 _ _ _ _ _ _ H) as Q. unfold fupd. destruct (Nat.eqb_spec j id) as [-> | N1]; [|exact Q]. congruence. }
    destruct t; injection S as <-; try (destruct Cl as [C1 C2]; constructor; assumption).
    constructor; proj.
    + intros j i x [[= <- <- <-] | J] Ho; [exact Sid|auto].
    + intros x f1 n1 a1 j k1. unfold eupd. destruct (el_eqb_spec x e) as [-> | N]; [discriminate|apply P2].
  - unfold finish in S. destruct (pc s e) as [| | |a t] eqn:Pc; try discriminate.
    destruct (process_same t (end_ (inl e) (go e Idle s))) as (Q1 & Q2 & Q3 & Q4).
    destruct (process t (end_ (inl e) (go e Idle s))) as [s1 v]. injection S as <-. cbn [fst] in *. revert Q1 Q2 Q3 Q4. proj. intros.
    apply pinv_same with (s := s); auto; [destruct v, a; assumption..|].
    intros x. replace (pc (match v with Keep => s1 | One => point_off e a s1 | All => points_off e s1 end)) with (pc s1) by (destruct v, a; reflexivity).
    rewrite Q4. unfold eupd. destruct (el_eqb_spec x e); [discriminate|auto].
  - destruct (has_rt c); [|discriminate]. unfold lsend in S. destruct (lpc s t); try discriminate. injection S as <-.
    apply pinv_same with (s := s); auto; destruct (enabled s); auto.
  - unfold lcall in S. destruct (lpc s t); try discriminate. injection S as <-. apply pinv_same with (s := s); auto; destruct r; auto.
  - unfold lfinish in S. destruct (lpc s t) as [|f|r]; try discriminate. injection S as <-.
    destruct (process_same r (end_ (inr t) (lgo t LIdle s))) as (Q1 & Q2 & Q3 & Q4). apply pinv_same with (s := s); auto. rewrite Q4. auto.
  - unfold done in S. destruct (find_trace k (out s)) as [id|] eqn:Fi; [|discriminate]. injection S as <-.
    apply find_trace_spec in Fi as [e0 Fi]. destruct P as [P1 P2]. destruct (i_out c s I k id e0 Fi) as (K1 & K2 & K3). constructor; proj.
    + intros j i x J Ho. apply filter_In in J as [J N]. cbn [fst] in N. apply negb_true_iff, Nat.eqb_neq in N.
      pose proof (P1 j i x J Ho) as Q. unfold fupd. destruct (Nat.eqb_spec i id) as [-> | Ni]; [|exact Q].
      destruct (i_out c s I j id x J) as (_ & W & _). pose proof (i_dis c s I _ _ _ W K2) as E. subst x.
      rewrite (P1 k id e0 Fi Ho) in Q. congruence.
    + intros x f n a i j H. pose proof (P2 _ _ _ _ _ _ H) as Q. unfold fupd. destruct (Nat.eqb_spec i id) as [-> | Ni]; [|exact Q].
      destruct (i_placed c s I x f n a id j H) as (_ & W & W3 & _). pose proof (i_dis c s I _ _ _ W K2) as E. subst x.
      assert (Ho : offered s (fst e0) = true) by (apply (i_pc c s I); congruence).
      rewrite (P1 k id e0 Fi Ho) in Q. injection Q as <-. now apply W3 in Fi.
  - destruct (has_rt c); [|discriminate]. injection S as <-. destruct (off_same s) as (Q1 & Q2 & Q3 & Q4). apply pinv_same with (s := s); auto.
    rewrite Q4. auto.
Qed.

Lemma reach_pinv c ls s : reach c prompt ls s -> pinv s.
Proof.
  induction 1 as [|ls s l s' R IH O S].
  - constructor; cbn; [contradiction|discriminate].
  - destruct (reach_inv _ _ _ _ R). eapply pinv_step; eauto.
Qed.

(** Missing from C89_held_partial: runs in which the service is offered again
    while the tracer has not yet reported a trace of the previous offer; see
    C89_late_report_refuted. *)
Theorem C89_held_partial c ls s k e : reach c prompt ls s -> in_use k e (log s) = true -> held k e s.
Proof.
  intros R U. destruct (reach_inv _ _ _ _ R) as [I _]. destruct (i_use c s I k e U) as [P O].
  apply (i_pend c s I) in P as [id J]. exists id. eapply p_out; eauto. eapply reach_pinv; eauto.
Qed.

(** The trace of [e] that is being handed over. *)
Definition handing (k : nat) (e : el) (s : st) : Prop := exists f n a id, pc s e = Placed f n a id k.

Theorem C89_released c ls s k e : reach c any ls s -> held k e s -> in_use k e (log s) = true \/ handing k e s.
Proof.
  intros R [id H]. destruct (reach_inv _ _ _ _ R) as [I _].
  destruct (i_slot c s I id k e H) as (_ & _ & _ & _ & _ & [A | (f & n & a & A)]).
  - left. eapply i_held; eauto.
  - right. exists f, n, a, id. exact A.
Qed.

(** ** The events of a step *)

Definition quiet_event (x : event) : bool :=
  match x with EOffer _ _ | EStop _ | EReg _ | EUnreg _ | EOff | EDone _ => true | _ => false end.

(** The records, losses and traces of a step, by label. *)
Inductive news (c : cfg) (s : st) : label -> list event -> Prop :=
| n_quiet l new : forallb quiet_event new = true -> news c s l new
| n_retry e a r n new : dummy c e = true -> forallb quiet_event new = true -> news c s (Send e a r) (new ++ [ERetry n])
| n_lost e f n a : pc s e = Meta f n a -> (forall id, within s e id -> slot s id <> None) -> news c s (Emplace e) [ELost]
| n_traced e f n a id k : pc s e = Placed f n a id k -> news c s (Call e TOk) [ERec f; ETraced k e id n]
| n_refused e f n a id k t : pc s e = Placed f n a id k -> t = TRecoverable \/ t = TFinal -> news c s (Call e t) [ELost]
| n_ltraced t f : lpc s t = LMeta f -> news c s (LCall t TOk) [ERec f]
| n_lrefused t f r : lpc s t = LMeta f -> r = TRecoverable \/ r = TFinal -> news c s (LCall t r) [ELost].

Lemma off_log s : exists new, log (off s) = new ++ log s /\ forallb quiet_event new = true.
Proof. unfold off. destruct (enabled s); [exists [EOff]; auto|exists []; auto]. Qed.
Lemma process_log t s : exists new, log (fst (process t s)) = new ++ log s /\ forallb quiet_event new = true.
Proof.
  unfold process. destruct t; cbn [fst]; [exists []; auto| | |apply off_log];
    (destruct (_ <=? _)%N; cbn [fst]; [apply (off_log (set_loss true (set_fails _ s)))|exists []; auto]).
Qed.
Lemma quiet_trans (a b d : list event) : (exists n, b = n ++ a /\ forallb quiet_event n = true) ->
  (exists n, d = n ++ b /\ forallb quiet_event n = true) -> exists n, d = n ++ a /\ forallb quiet_event n = true.
Proof.
  intros (n & -> & N) (m & -> & M). exists (m ++ n). rewrite forallb_app, N, M, app_assoc. auto.
Qed.
Lemma quiet_one x (a : list event) : quiet_event x = true -> exists n, x :: a = n ++ a /\ forallb quiet_event n = true.
Proof. intros Q. exists [x]. cbn. rewrite Q. auto. Qed.
Lemma quiet_nil (a : list event) : exists n, a = n ++ a /\ forallb quiet_event n = true.
Proof. exists []. auto. Qed.

Lemma each_log {A} (f : A -> st -> st) l : (forall x s, exists n, log (f x s) = n ++ log s /\ forallb quiet_event n = true) ->
  forall s, exists n, log (each f l s) = n ++ log s /\ forallb quiet_event n = true.
Proof.
  intros H. induction l as [|x l IH]; cbn [each]; intros s; [apply quiet_nil|]. destruct (down (f x s)); [apply H|].
  eapply quiet_trans; [apply H|apply IH].
Qed.

Lemma register_log i n r s : exists new, log (register i n r s) = new ++ log s /\ forallb quiet_event new = true.
Proof.
  unfold register. destruct (enabled s); [|apply quiet_nil]. destruct r; cbv zeta; proj.
  - destruct (hmap s i); proj; now apply quiet_one.
  - destruct (cmap s i); proj; now apply quiet_one.
  - now apply quiet_one.
  - eapply quiet_trans; [|apply off_log]. proj. now apply quiet_one.
  - apply quiet_nil.
Qed.
Lemma unregister_log i t s : exists new, log (unregister i t s) = new ++ log s /\ forallb quiet_event new = true.
Proof.
  unfold unregister. destruct (enabled s); [|apply quiet_nil]. destruct (hmap s i); cbv zeta; [|apply quiet_nil].
  destruct t; [|now apply quiet_one]. eapply quiet_trans; [|apply off_log]. proj. now apply quiet_one.
Qed.
Lemma prepare_log c bad e s : exists new, log (prepare c bad e s) = new ++ log s /\ forallb quiet_event new = true.
Proof.
  unfold prepare. destruct (bad e && negb (has_rt c)); [apply quiet_nil|].
  destruct (bad e); cbv zeta; destruct (_ && _); proj; try apply quiet_nil; apply off_log.
Qed.
Lemma unprepare_log e s : log (unprepare e s) = log s.
Proof. unfold unprepare. destruct (guard s e); reflexivity. Qed.

Lemma step_news c s l s' : step c s l = Some s' -> exists new, log s' = new ++ log s /\ news c s l new.
Proof.
  intros S.
  assert (Q : (exists n, log s' = n ++ log s /\ forallb quiet_event n = true) -> exists new, log s' = new ++ log s /\ news c s l new).
  { intros (n & E & H). exists n. split; [exact E|]. now constructor. }
  unfold step in S. destruct (down s); [discriminate|]. destruct l.
  - destruct (created s o); [discriminate|]. injection S as <-. apply Q. proj. apply each_log. intros e s1. unfold new_element.
    repeat match goal with |- context [if ?b then _ else _] => destruct b end; apply quiet_nil.
  - destruct (created s o && negb (offered s o)); [|discriminate]. injection S as <-. apply Q. unfold offer. cbv zeta.
    set (s1 := if any_point c o s then register (inst c o) (noffers s) r (next_offer o s) else next_offer o s).
    assert (Q1 : exists n, log s1 = n ++ log s /\ forallb quiet_event n = true).
    { unfold s1. destruct (any_point c o s); [apply (register_log _ _ _ (next_offer o s))|apply quiet_nil]. }
    clearbody s1. destruct (down s1); [exact Q1|].
    assert (Q2 : exists n, log (each (prepare c bad) (members c o) s1) = n ++ log s /\ forallb quiet_event n = true).
    { eapply quiet_trans; [exact Q1|]. apply each_log. intros. apply prepare_log. }
    set (s2 := each (prepare c bad) (members c o) s1) in *. clearbody s2. destruct (down s2); [exact Q2|]. destruct ok; proj.
    + eapply quiet_trans; [exact Q2|now apply quiet_one].
    + eapply quiet_trans; [|now apply quiet_one]. eapply quiet_trans; [exact Q2|]. apply each_log. intros. rewrite unprepare_log. apply quiet_nil.
  - destruct (offered s o && forallb (idle s) (members c o)); [|discriminate]. injection S as <-. apply Q. unfold stop. cbv zeta. proj.
    eapply quiet_trans; [|now apply quiet_one].
    assert (Q1 : exists n, log (each unprepare (members c o) s) = n ++ log s /\ forallb quiet_event n = true).
    { apply each_log. intros. rewrite unprepare_log. apply quiet_nil. }
    destruct (any_point _ _ _); [|exact Q1]. eapply quiet_trans; [exact Q1|apply unregister_log].
  - destruct (_ && _ && _); [|discriminate]. injection S as <-. revert Q. unfold send, points_off, point_off.
    destruct (if a then pa s e else ps s e); [|intros Q; apply Q, quiet_nil].
    destruct (tlog s e); [|intros Q; apply Q, quiet_nil].
    destruct (enabled s) eqn:E; [|intros Q; apply Q; destruct a; apply quiet_nil].
    destruct (hmap s (inst c (fst e))); [intros Q; apply Q, quiet_nil|].
    destruct (if dummy c e then cmap s (inst c (fst e)) else None) as [n|] eqn:X; [|intros Q; apply Q; destruct a; apply quiet_nil].
    intros _. assert (Dm : dummy c e = true) by (destruct (dummy c e); [reflexivity|discriminate]). cbv zeta.
    destruct r; unfold off; proj; rewrite ?E; proj.
    + exists [ERetry n]. split; [reflexivity|]. now apply (n_retry c s e a ROk n []).
    + exists [ERetry n]. split; [destruct a; reflexivity|]. now apply (n_retry c s e a RRecoverable n []).
    + exists [ERetry n]. split; [destruct a; reflexivity|]. now apply (n_retry c s e a RFinal n []).
    + exists [EOff; ERetry n]. split; [reflexivity|]. now apply (n_retry c s e a RTerminal n [EOff]).
    + exists [ERetry n]. split; [destruct a; reflexivity|]. now apply (n_retry c s e a NotTyped n []).
  - unfold emplace in S. destruct (pc s e) as [|f n a| |] eqn:P; try discriminate.
    destruct (nxt s <=? fst (rng s e)); [injection S as <-; apply Q, quiet_nil|].
    destruct (first_free _ _ _) eqn:F; injection S as <-; [apply Q, quiet_nil|]. exists [ELost]. split; [reflexivity|].
    apply n_lost with (f := f) (n := n) (a := a); [exact P|]. intros id W. eapply first_free_none; eauto.
  - unfold call in S. destruct (pc s e) as [| |f n a id k|] eqn:P; try discriminate. cbv zeta in S.
    destruct t; injection S as <-.
    + exists [ERec f; ETraced k e id n]. split; [reflexivity|]. now apply n_traced with (a := a).
    + exists [ELost]. split; [reflexivity|]. eapply n_refused; eauto.
    + exists [ELost]. split; [reflexivity|]. eapply n_refused; eauto.
    + apply Q, quiet_nil.
  - unfold finish in S. destruct (pc s e) as [| | |a t]; try discriminate.
    destruct (process_log t (end_ (inl e) (go e Idle s))) as (n & N1 & N2).
    destruct (process t _) as [s1 v]. injection S as <-. apply Q. exists n. cbn [fst] in N1. split; [|exact N2].
    destruct v, a; exact N1.
  - destruct (has_rt c); [|discriminate]. unfold lsend in S. destruct (lpc s t); try discriminate. injection S as <-.
    apply Q. destruct (enabled s); apply quiet_nil.
  - unfold lcall in S. destruct (lpc s t) as [|f|] eqn:P; try discriminate. injection S as <-. destruct r.
    + exists [ERec f]. split; [reflexivity|]. now apply n_ltraced.
    + exists [ELost]. split; [reflexivity|]. eapply n_lrefused; eauto.
    + exists [ELost]. split; [reflexivity|]. eapply n_lrefused; eauto.
    + apply Q, quiet_nil.
  - unfold lfinish in S. destruct (lpc s t) as [| |r]; try discriminate. injection S as <-.
    apply Q. apply (process_log r (end_ (inr t) (lgo t LIdle s))).
  - unfold done in S. destruct (find_trace _ _); [|discriminate]. injection S as <-. apply Q. now apply quiet_one.
  - destruct (has_rt c); [|discriminate]. injection S as <-. apply Q, off_log.
Qed.

(** Where an event stands in the history: in the part a step adds, or before. *)
Lemma split_new {A} (new old h1 h2 : list A) x : new ++ old = h1 ++ x :: h2 ->
  (exists h, new = h1 ++ x :: h /\ h2 = h ++ old) \/ (exists h, old = h ++ x :: h2).
Proof.
  revert h1. induction new as [|y new IH]; cbn; intros h1 E; [right; eauto|].
  destruct h1 as [|z h1]; cbn in E.
  - injection E as -> <-. left. exists new. auto.
  - injection E as -> E. destruct (IH h1 E) as [(h & -> & ->) | (h & ->)]; [left; exists h; auto|right; eauto].
Qed.

Lemma in_news_traced c s l new k e id n : news c s l new -> In (ETraced k e id n) new ->
  l = Call e TOk /\ exists f a, pc s e = Placed f n a id k /\ new = [ERec f; ETraced k e id n].
Proof.
  intros N J. assert (Q : forall l, forallb quiet_event l = true -> ~ In (ETraced k e id n) l).
  { intros q H J'. rewrite forallb_forall in H. apply H in J'. discriminate. }
  inversion N; subst.
  - now apply Q in J.
  - apply in_app_or in J as [J | [J | []]]; [now apply Q in J|discriminate].
  - destruct J as [J | []]; discriminate.
  - destruct J as [J | [J | []]]; [discriminate|]. injection J as -> -> -> ->. eauto 6.
  - destruct J as [J | []]; discriminate.
  - destruct J as [J | []]; discriminate.
  - destruct J as [J | []]; discriminate.
Qed.

(** ** C90: identifiers and dropped samples *)

Lemma nodup_map_seq (f : nat -> nat) a n : (forall i j, a <= i < a + n -> a <= j < a + n -> f i = f j -> i = j) -> NoDup (map f (seq a n)).
Proof.
  revert a. induction n as [|n IH]; cbn; intros a H; [constructor|]. constructor.
  - intros J. apply in_map_iff in J as (j & E & J). apply in_seq in J. assert (j = a) by (apply H; lia). lia.
  - apply IH. intros i j Hi Hj. apply H; lia.
Qed.

(** A sample whose slot could not be found is dropped only if the tracer is
    working on as many samples of the element as it has slots. *)
Theorem C90_dropped_only_when_full c ls s e s' : reach c any ls s -> step c s (Emplace e) = Some s' -> log s' = ELost :: log s ->
  0 < slots c e <= length (working e (log s)).
Proof.
  intros R S L. destruct (reach_inv _ _ _ _ R) as [I _]. destruct (step_news c s _ s' S) as (new & E & N). rewrite E in L.
  assert (new = [ELost]) as -> by (apply (app_inv_tail (log s)); exact L).
  inversion N; subst; [discriminate|].
  match goal with A : pc s e = Meta _ _ _, B : forall id, within s e id -> _ |- _ => rename A into Hp, B into Hf end.
  assert (P : pc s e <> Idle) by congruence. destruct (i_pc c s I e P) as (_ & _ & R0 & _).
  destruct (i_rng c s I e) as [Z | [Z _]]; [lia|]. rewrite <- Z. split; [exact R0|].
  pose (g := fun id => match slot s id with Some (k, _) => k | None => 0 end).
  assert (G : forall id, within s e id -> exists k, slot s id = Some (k, e) /\ In (k, id, e) (out s)).
  { intros id W. destruct (slot s id) as [[k x]|] eqn:Sl; [|now apply Hf in Sl].
    destruct (i_slot c s I id k x Sl) as (W' & _). pose proof (i_dis c s I _ _ _ W W') as X. subst x.
    exists k. split; [reflexivity|]. apply (slot_out c s e I); [|exact Sl]. now rewrite Hp. }
  rewrite <- (seq_length (snd (rng s e)) (fst (rng s e))), <- (map_length g). apply NoDup_incl_length.
  - apply nodup_map_seq. intros i j Hi Hj. destruct (G i Hi) as (k1 & S1 & O1), (G j Hj) as (k2 & S2 & O2).
    unfold g. rewrite S1, S2. intros <-. symmetry. eapply (i_out c s I); eauto.
  - intros k J. apply in_map_iff in J as (id & <- & J). apply in_seq in J. destruct (G id J) as (k & S1 & O1).
    unfold g. rewrite S1. eapply (i_work c s I); eauto.
Qed.

(** Identifiers: the trace with an identifier is the only one. *)
Record tinv (s : st) : Prop := {
  t_tr : forall k e id n, In (ETraced k e id n) (log s) -> k < ntraces s /\ (forall x f m a i, pc s x <> Placed f m a i k) /\
         (pending k e (log s) = true -> In (k, id, e) (out s))
}.

Lemma step_traces c s l s' : step c s l = Some s' ->
  ntraces s <= ntraces s' /\ (forall x f n a i k, pc s' x = Placed f n a i k -> pc s x = Placed f n a i k \/ k = ntraces s /\ ntraces s' = S k) /\
  (forall k id e, In (k, id, e) (out s) -> In (k, id, e) (out s') \/ l = Done k /\ In (EDone k) (log s')) /\
  (forall k id e, In (k, id, e) (out s') -> In (k, id, e) (out s) \/ exists f n a, pc s e = Placed f n a id k /\ l = Call e TOk).
Proof.
  intros S. unfold step in S. destruct (down s); [discriminate|].
  assert (Tr : ntraces s' = ntraces s -> out s' = out s -> (forall x, placed (pc s' x) = true -> pc s' x = pc s x) ->
    ntraces s <= ntraces s' /\ (forall x f n a i k, pc s' x = Placed f n a i k -> pc s x = Placed f n a i k \/ k = ntraces s /\ ntraces s' = Datatypes.S k) /\
    (forall k id e, In (k, id, e) (out s) -> In (k, id, e) (out s') \/ l = Done k /\ In (EDone k) (log s')) /\
    (forall k id e, In (k, id, e) (out s') -> In (k, id, e) (out s) \/ exists f n a, pc s e = Placed f n a id k /\ l = Call e TOk)).
  { intros -> -> H. repeat split; auto. intros x f n a i k P. left. rewrite <- H; [exact P|]. now rewrite P. }
  destruct l.
  - destruct (created s o); [discriminate|]. injection S as <-.
    assert (Fr : nframe s (each (new_element c) (members c o) s)).
    { apply (each_inv (nframe s)); [|constructor; repeat split]. intros e x _ [A]. destruct (new_element_frame c e x) as [[B] _].
      decompose [and] A. decompose [and] B. constructor. repeat split; congruence. }
    destruct Fr as [Fr]. decompose [and] Fr. apply Tr; proj; auto. intros. congruence.
  - destruct (created s o && negb (offered s o)); [|discriminate]. injection S as <-.
    destruct (offer_frame c o r bad ok s) as (A1 & A2 & A3 & A4 & A5 & A6 & A7 & A8 & _). apply Tr; auto. intros. congruence.
  - destruct (offered s o && forallb (idle s) (members c o)); [|discriminate]. injection S as <-.
    apply Tr; destruct (stop_frame c o t s) as [A | A]; decompose [and] A; auto; intros; congruence.
  - destruct (_ && _ && _); [|discriminate]. injection S as <-.
    assert (Q : out (send c e a r s) = out s /\ ntraces (send c e a r s) = ntraces s /\
                (pc (send c e a r s) = pc s \/ exists f n, pc (send c e a r s) = eupd (pc s) e (Meta f n a))).
    { unfold send, point_off, points_off, off. repeat match goal with |- context [match ?x with _ => _ end] => destruct x end; proj; eauto 10. }
    destruct Q as (Q1 & Q2 & Q4). apply Tr; auto. intros x. destruct Q4 as [-> | (f & n & ->)]; [auto|].
    unfold eupd. destruct (el_eqb_spec x e); [discriminate|auto].
  - unfold emplace in S. destruct (pc s e) as [|f n a| |] eqn:P; try discriminate.
    destruct (nxt s <=? fst (rng s e)); [injection S as <-; apply Tr; auto|].
    destruct (first_free _ _ _) eqn:F; injection S as <-.
    + clear Tr. proj. repeat split; auto. intros x f1 n1 a1 i k. unfold eupd. destruct (el_eqb_spec x e) as [-> | N]; [|auto].
      intros [= _ _ _ _ <-]. auto.
    + apply Tr; auto. proj. intros x. unfold eupd. destruct (el_eqb_spec x e); [discriminate|auto].
  - unfold call in S. destruct (pc s e) as [| |f n a id k|] eqn:P; try discriminate. cbv zeta in S.
    assert (Pc : forall x, placed (eupd (pc s) e (Fin a t) x) = true -> eupd (pc s) e (Fin a t) x = pc s x).
    { intros x. unfold eupd. destruct (el_eqb_spec x e); [discriminate|auto]. }
    destruct t; injection S as <-; try (apply Tr; auto; fail).
    clear Tr. proj. repeat split; auto.
    + intros x f1 n1 a1 i k1 H. left. rewrite <- Pc; [exact H|]. now rewrite H.
    + intros k1 i x J. left. now right.
    + intros k1 i x [[= <- <- <-] | J]; [right; eauto|auto].
  - unfold finish in S. destruct (pc s e) as [| | |a t] eqn:P; try discriminate.
    destruct (process_same t (end_ (inl e) (go e Idle s))) as (Q1 & Q2 & Q3 & Q4).
    assert (Q5 : ntraces (fst (process t (end_ (inl e) (go e Idle s)))) = ntraces s).
    { unfold process, off. destruct t; cbn [fst]; auto; try (destruct (_ <=? _)%N; cbn [fst]); proj; destruct (enabled s); auto. }
    destruct (process t (end_ (inl e) (go e Idle s))) as [s1 v]. injection S as <-. cbn [fst] in *. revert Q1 Q2 Q3 Q4. proj. intros.
    apply Tr; [destruct v, a; assumption..|].
    intros x. replace (pc (match v with Keep => s1 | One => point_off e a s1 | All => points_off e s1 end)) with (pc s1) by (destruct v, a; reflexivity).
    rewrite Q4. unfold eupd. destruct (el_eqb_spec x e); [discriminate|auto].
  - destruct (has_rt c); [|discriminate]. unfold lsend in S. destruct (lpc s t); try discriminate. injection S as <-.
    apply Tr; destruct (enabled s); auto.
  - unfold lcall in S. destruct (lpc s t); try discriminate. injection S as <-. apply Tr; destruct r; auto.
  - unfold lfinish in S. destruct (lpc s t) as [|f|r]; try discriminate. injection S as <-.
    destruct (process_same r (end_ (inr t) (lgo t LIdle s))) as (Q1 & Q2 & Q3 & Q4). apply Tr; auto.
    + unfold process, off. destruct r; cbn [fst]; auto; try (destruct (_ <=? _)%N; cbn [fst]); proj; destruct (enabled s); auto.
    + rewrite Q4. auto.
  - unfold done in S. destruct (find_trace _ _); [|discriminate]. injection S as <-. clear Tr. proj. repeat split; auto.
    + intros j id e J. destruct (Nat.eq_dec j k) as [-> | N]; [right; split; [reflexivity|now left]|left].
      apply filter_In. cbn [fst]. split; [exact J|]. apply Nat.eqb_neq in N. now rewrite N.
    + intros j id e J. apply filter_In in J as [J _]. auto.
  - destruct (has_rt c); [|discriminate]. injection S as <-. destruct (off_same s) as (Q1 & Q2 & Q3 & Q4). apply Tr; auto.
    + unfold off. destruct (enabled s); reflexivity.
    + rewrite Q4. auto.
Qed.

Lemma tinv_step c s l s' : inv c s -> inv c s' -> tinv s -> step c s l = Some s' -> tinv s'.
Proof.
  intros I I' [T] S. destruct (step_traces c s l s' S) as (A1 & A2 & A3 & A4). destruct (step_news c s l s' S) as (new & E & N).
  constructor. intros k e id n J. rewrite E in J. apply in_app_or in J as [J | J].
  - destruct (in_news_traced c s l new k e id n N J) as (-> & f & a & P & _).
    destruct (i_placed c s I e f n a id k P) as (K1 & K2 & K3 & K4).
    unfold step in S. destruct (down s); [discriminate|]. unfold call in S. rewrite P in S. injection S as <-. proj.
    split; [exact K1|]. split; [|intros _; now left].
    intros x f1 m1 a1 i. unfold eupd. destruct (el_eqb_spec x e) as [-> | Ne]; [discriminate|]. intros H. apply K4 in H. congruence.
  - destruct (T k e id n J) as (B1 & B2 & B3). split; [lia|]. split.
    + intros x f m a i H. destruct (A2 x f m a i k H) as [H' | [-> _]]; [now apply B2 in H'|lia].
    + intros Pe. apply (i_pend c s' I') in Pe as [id' O']. destruct (A4 k id' e O') as [O | (f & m & a & H & _)]; [|now apply B2 in H].
      assert (Pe : pending k e (log s) = true) by (apply (i_pend c s I); eauto). specialize (B3 Pe).
      destruct (i_out c s I k id e B3) as (_ & _ & U). destruct (U id' e O) as [-> _]. exact O'.
Qed.
Lemma reach_tinv c ok ls s : reach c ok ls s -> tinv s.
Proof.
  induction 1 as [|ls s l s' R IH O S]; [constructor; cbn; contradiction|].
  destruct (reach_inv _ _ _ _ R) as [I F]. destruct (step_inv c s l s' I F S) as [I' _]. exact (tinv_step c s l s' I I' IH S).
Qed.

(** Missing from C90_ids_distinct_partial: as for C89_held_partial; see
    C90_same_id_refuted. *)
Theorem C90_ids_distinct_partial c ls s h1 h2 k e id n j x m : reach c prompt ls s ->
  log s = h1 ++ ETraced k e id n :: h2 -> In (ETraced j x id m) h2 -> in_use j x h2 = false.
Proof.
  intros R. revert h1 h2. induction R as [|ls s l s' R IH O S]; intros h1 h2 L J; [destruct h1; discriminate|].
  destruct (step_news c s l s' S) as (new & E & N). rewrite E in L.
  destruct (split_new new (log s) h1 h2 _ L) as [(h & H1 & ->) | (h & H1)]; [|eapply IH; eauto].
  assert (K : In (ETraced k e id n) new) by (rewrite H1; apply in_elt).
  destruct (in_news_traced c s l new k e id n N K) as (-> & f & a & P & H2). rewrite H2 in H1.
  assert (h = []) as ->.
  { destruct h1 as [|y [|z h1]]; cbn in H1; try discriminate; injection H1; intros; subst; auto. destruct h1; discriminate. }
  cbn [app] in *. destruct (in_use j x (log s)) eqn:U; [|reflexivity].
  destruct (reach_inv _ _ _ _ R) as [I _]. pose proof (reach_pinv _ _ _ R) as [P1 P2]. destruct (reach_tinv _ _ _ _ R) as [T].
  destruct (i_use c s I j x U) as [Pe Of]. destruct (T j x id m J) as (_ & T2 & T3).
  pose proof (P1 j id x (T3 Pe) Of) as S1. pose proof (P2 _ _ _ _ _ _ P) as S2. rewrite S1 in S2. injection S2 as <- <-.
  now apply T2 in P.
Qed.

(** ** C91: the announcement of losses *)

Fixpoint lost (h : list event) : bool :=
  match h with [] => false | ERec _ :: _ => false | ELost :: _ => true | _ :: r => lost r end.

Definition failed (t : tres) : bool := match t with TRecoverable | TFinal => true | _ => false end.

Record qinv (s : st) : Prop := {
  q_len : length (busy s) <= 1;
  q_pc : forall e, pc s e <> Idle -> In (inl e) (busy s);
  q_lpc : forall t, lpc s t <> LIdle -> In (inr t) (busy s);
  q_loss : lost (log s) = true ->
    (exists e a t, pc s e = Fin a t /\ failed t = true) \/ (exists t r, lpc s t = LFin r /\ failed r = true) \/
    (loss s = true /\ (forall e f n a, pc s e = Meta f n a -> f = true) /\ (forall e f n a id k, pc s e = Placed f n a id k -> f = true) /\
     (forall t f, lpc s t = LMeta f -> f = true) /\ (forall e a, pc s e <> Fin a TOk) /\ (forall t, lpc s t <> LFin TOk))
}.

Lemma one_of {A} (l : list A) x y : length l <= 1 -> In x l -> In y l -> x = y.
Proof. destruct l as [|a [|b l]]; cbn; intros H X Y; [contradiction|destruct X as [-> | []], Y as [-> | []]; reflexivity|lia]. Qed.
Lemma ended (l : list (el + nat)) x : length l <= 1 -> In x l -> filter (fun y => negb (act_eqb y x)) l = [].
Proof.
  destruct l as [|a [|b l]]; cbn; intros H X; [reflexivity|destruct X as [-> | []]|lia].
  destruct (act_eqb_spec x x); [reflexivity|congruence].
Qed.

Lemma qinv_same s s' : qinv s -> busy s' = busy s -> pc s' = pc s -> lpc s' = lpc s -> loss s' = loss s -> lost (log s') = lost (log s) -> qinv s'.
Proof.
  intros [Q1 Q2 Q3 Q4] A B C D E. constructor; rewrite ?A, ?B, ?C, ?D, ?E; assumption.
Qed.
Lemma lost_quiet new h : forallb quiet_event new = true -> lost (new ++ h) = lost h.
Proof. induction new as [|x new IH]; cbn; [auto|]. intros H. apply andb_true_iff in H as [X H]. destruct x; try discriminate; auto. Qed.

(** The state after a call has been processed: nothing is in progress. *)
Lemma qinv_idle s : busy s = [] -> (forall e, pc s e = Idle) -> (forall t, lpc s t = LIdle) -> (lost (log s) = true -> loss s = true) -> qinv s.
Proof.
  intros A B C D. constructor.
  - rewrite A. cbn. lia.
  - intros e H. now rewrite B in H.
  - intros t H. now rewrite C in H.
  - intros L. right. right. split; [auto|]. repeat split; intros *; rewrite ?B, ?C; discriminate.
Qed.

Lemma process_loss t s : let s' := fst (process t s) in
  busy s' = busy s /\ pc s' = pc s /\ lpc s' = lpc s /\ lost (log s') = lost (log s) /\
  loss s' = match t with TOk => false | TTerminal => loss s | _ => true end.
Proof.
  unfold process, off. destruct t; cbn [fst]; auto; try (destruct (_ <=? _)%N; cbn [fst]); proj; destruct (enabled s); cbn; auto 10.
Qed.

Lemma qinv_processed s t x : qinv s -> In x (busy s) ->
  (forall e, inl e <> x -> pc s e = Idle) -> (forall u, inr u <> x -> lpc s u = LIdle) ->
  forall s1, busy s1 = filter (fun y => negb (act_eqb y x)) (busy s) -> (forall e, pc s1 e = Idle) -> (forall u, lpc s1 u = LIdle) ->
  log s1 = log s -> loss s1 = loss s ->
  (match x with inl e => exists a, pc s e = Fin a t | inr u => lpc s u = LFin t end) -> qinv (fst (process t s1)).
Proof.
  intros Q J U1 U2 s1 B P1 P2 L1 L2 X. destruct (process_loss t s1) as (A1 & A2 & A3 & A4 & A5).
  apply qinv_idle.
  - rewrite A1, B. apply ended; [apply (q_len s Q)|exact J].
  - intros e. rewrite A2. apply P1.
  - intros u. rewrite A3. apply P2.
  - rewrite A4, A5, L1, L2. intros L. destruct (q_loss s Q L) as [(e & a & t1 & E1 & E2) | [(u & r & E1 & E2) | (E1 & _ & _ & _ & E2 & E3)]].
    + assert (Z : x = inl e) by (apply (one_of (busy s)); [apply (q_len s Q)|exact J|apply (q_pc s Q); congruence]). subst x.
      destruct X as [a' X]. rewrite X in E1. injection E1 as <- <-. destruct t; auto; discriminate.
    + assert (Z : x = inr u) by (apply (one_of (busy s)); [apply (q_len s Q)|exact J|apply (q_lpc s Q); congruence]). subst x.
      rewrite X in E1. injection E1 as <-. destruct t; auto; discriminate.
    + destruct t; auto. destruct x as [e | u]; [destruct X as [a X]; now apply E2 in X|now apply E3 in X].
Qed.

Lemma alone s x : qinv s -> In x (busy s) -> (forall e, inl e <> x -> pc s e = Idle) /\ (forall u, inr u <> x -> lpc s u = LIdle).
Proof.
  intros Q J. split.
  - intros e N. destruct (pc s e) eqn:P; auto; exfalso; apply N;
      (apply (one_of (busy s)); [apply (q_len s Q)|apply (q_pc s Q); congruence|exact J]).
  - intros u N. destruct (lpc s u) eqn:P; auto; exfalso; apply N;
      (apply (one_of (busy s)); [apply (q_len s Q)|apply (q_lpc s Q); congruence|exact J]).
Qed.

Lemma qinv_step c s l s' : qinv s -> one_at_a_time s l -> step c s l = Some s' -> qinv s'.
Proof.
  intros Q Ok S0. assert (S := S0). unfold step in S. destruct (down s); [discriminate|].
  assert (Lq : forall l0, l = l0 -> match l0 with Create _ | Offer _ _ _ _ | Stop _ _ | Finish _ | LSend _ | LFinish _ | Done _ | Disable => True | _ => False end ->
             lost (log s') = lost (log s)).
  { intros l0 <- H. destruct (step_news c s l s' S0) as (new & E & N). rewrite E.
    destruct N; try contradiction; now apply lost_quiet. }
  destruct l; try specialize (Lq _ eq_refl Logic.I).
  - destruct (created s o); [discriminate|]. injection S as <-.
    assert (Fr : nframe s (each (new_element c) (members c o) s)).
    { apply (each_inv (nframe s)); [|constructor; repeat split]. intros e x _ [A]. destruct (new_element_frame c e x) as [[B] _].
      decompose [and] A. decompose [and] B. constructor. repeat split; congruence. }
    destruct Fr as [Fr]. decompose [and] Fr. apply qinv_same with (s := s); auto.
  - destruct (created s o && negb (offered s o)); [|discriminate]. injection S as <-.
    destruct (offer_frame c o r bad ok s) as (A1 & A2 & A3 & A4 & A5 & A6 & A7 & A8 & A9 & A10 & A11 & _).
    apply qinv_same with (s := s); auto.
  - destruct (offered s o && forallb (idle s) (members c o)); [|discriminate]. injection S as <-.
    apply qinv_same with (s := s); destruct (stop_frame c o t s) as [A | A]; decompose [and] A; auto.
  - destruct (_ && _ && _); [|discriminate]. injection S as <-. cbn [one_at_a_time] in Ok.
    assert (X : (busy (send c e a r s) = busy s /\ pc (send c e a r s) = pc s /\ lpc (send c e a r s) = lpc s /\ loss (send c e a r s) = loss s) \/
                exists n, busy (send c e a r s) = inl e :: busy s /\ pc (send c e a r s) = eupd (pc s) e (Meta (loss s) n a) /\
                          lpc (send c e a r s) = lpc s /\ loss (send c e a r s) = loss s).
    { unfold send, point_off, points_off, off. repeat match goal with |- context [match ?x with _ => _ end] => destruct x end; proj; eauto 10. }
    assert (Ll : lost (log (send c e a r s)) = lost (log s)).
    { destruct (step_news c s _ _ S0) as (new & E & N). rewrite E. inversion N; subst; [now apply lost_quiet|].
      rewrite <- app_assoc. rewrite lost_quiet by assumption. reflexivity. }
    destruct X as [(X1 & X2 & X3 & X4) | (n & X1 & X2 & X3 & X4)]; [apply qinv_same with (s := s); auto|].
    assert (P1 : forall x, pc s x = Idle).
    { intros x. destruct (pc s x) eqn:P; auto; (assert (J : In (inl x) (busy s)) by (apply (q_pc s Q); congruence); rewrite Ok in J; destruct J). }
    assert (P2 : forall t, lpc s t = LIdle).
    { intros t. destruct (lpc s t) eqn:P; auto; (assert (J : In (inr t) (busy s)) by (apply (q_lpc s Q); congruence); rewrite Ok in J; destruct J). }
    constructor.
    + rewrite X1, Ok. cbn. lia.
    + intros x. rewrite X1, X2. unfold eupd. destruct (el_eqb_spec x e) as [-> | N]; [now left|]. intros H. now rewrite P1 in H.
    + intros t. rewrite X3. intros H. now rewrite P2 in H.
    + rewrite Ll, X2, X3, X4. intros L. right. right.
      destruct (q_loss s Q L) as [(x & a1 & t1 & E1 & _) | [(u & r1 & E1 & _) | (E1 & _)]];
        [now rewrite P1 in E1|now rewrite P2 in E1|]. split; [exact E1|].
      repeat split; intros y *; try (rewrite P2; discriminate); unfold eupd; destruct (el_eqb_spec y e); try (rewrite P1; discriminate); try discriminate.
      intros [= <- _ _]. exact E1.
  - unfold emplace in S. destruct (pc s e) as [|f n a| |] eqn:P; try discriminate.
    assert (J : In (inl e) (busy s)) by (apply (q_pc s Q); congruence).
    destruct (alone s (inl e) Q J) as [U1 U2].
    destruct (nxt s <=? fst (rng s e)); [injection S as <-; apply qinv_same with (s := s); auto|].
    destruct (first_free _ _ _) eqn:F; injection S as <-.
    + destruct Q as [Q1 Q2 Q3 Q4]. constructor; proj; auto.
      * intros x. unfold eupd. destruct (el_eqb_spec x e) as [-> | N]; [auto|apply Q2].
      * intros L. destruct (Q4 L) as [(x & a1 & t1 & E1 & E2) | [(u & r1 & E1 & E2) | (E1 & E2 & E3 & E4 & E5 & E6)]].
        -- exfalso. assert (x = e) by (destruct (el_dec x e); [assumption|rewrite U1 in E1; congruence]). congruence.
        -- exfalso. rewrite U2 in E1; congruence.
        -- right. right. split; [exact E1|]. repeat split; auto; intros x *; unfold eupd; destruct (el_eqb_spec x e); try discriminate; try apply E2; try apply E3; try apply E5.
           intros [= <- _ _ _ _]. eapply E2; eauto.
    + apply qinv_idle; proj; auto.
      * apply ended; [apply (q_len s Q)|exact J].
      * intros x. unfold eupd. destruct (el_eqb_spec x e); [reflexivity|]. apply U1. congruence.
      * intros u. apply U2. discriminate.
  - unfold call in S. destruct (pc s e) as [| |f n a id k|] eqn:P; try discriminate. cbv zeta in S.
    assert (J : In (inl e) (busy s)) by (apply (q_pc s Q); congruence).
    destruct (alone s (inl e) Q J) as [U1 U2].
    assert (G : forall s1, busy s1 = busy s -> pc s1 = eupd (pc s) e (Fin a t) -> lpc s1 = lpc s -> loss s1 = loss s ->
              (lost (log s1) = true -> failed t = true \/ lost (log s) = true /\ t <> TOk) -> qinv s1).
    { intros s1 B1 B2 B3 B4 B5. destruct Q as [Q1 Q2 Q3 Q4]. constructor; rewrite ?B1, ?B2, ?B3, ?B4; auto.
      - intros x. unfold eupd. destruct (el_eqb_spec x e) as [-> | N]; [auto|apply Q2].
      - intros L. destruct (B5 L) as [Ft | [Ls Nt]]; [left; exists e, a, t; rewrite eupd_eq; auto|].
        destruct (Q4 Ls) as [(x & a1 & t1 & E1 & E2) | [(u & r1 & E1 & E2) | (E1 & E2 & E3 & E4 & E5 & E6)]].
        + exfalso. assert (x = e) by (destruct (el_dec x e); [assumption|rewrite U1 in E1; congruence]). congruence.
        + exfalso. rewrite U2 in E1; congruence.
        + right. right. split; [exact E1|]. repeat split; auto; intros x *; unfold eupd; destruct (el_eqb_spec x e); try discriminate; try apply E2; try apply E3; try apply E5.
          congruence. }
    destruct t; injection S as <-; apply G; auto; proj; cbn [lost]; auto; try discriminate.
    intros L. right. split; [exact L|discriminate].
  - unfold finish in S. destruct (pc s e) as [| | |a t] eqn:P; try discriminate.
    assert (J : In (inl e) (busy s)) by (apply (q_pc s Q); congruence).
    destruct (alone s (inl e) Q J) as [U1 U2].
    assert (G : qinv (fst (process t (end_ (inl e) (go e Idle s))))).
    { apply qinv_processed with (s := s) (x := inl e); auto; proj.
      - intros x. unfold eupd. destruct (el_eqb_spec x e); [reflexivity|]. apply U1. congruence.
      - intros u. apply U2. discriminate.
      - exists a. exact P. }
    destruct (process t (end_ (inl e) (go e Idle s))) as [s1 v]. cbn [fst] in G. injection S as <-.
    apply qinv_same with (s := s1); auto; destruct v, a; reflexivity.
  - destruct (has_rt c); [|discriminate]. unfold lsend in S. destruct (lpc s t) eqn:P; try discriminate. injection S as <-. cbn [one_at_a_time] in Ok.
    destruct (enabled s); [|apply qinv_same with (s := s); auto].
    assert (P1 : forall x, pc s x = Idle).
    { intros x. destruct (pc s x) eqn:P1; auto; (assert (J : In (inl x) (busy s)) by (apply (q_pc s Q); congruence); rewrite Ok in J; destruct J). }
    assert (P2 : forall t, lpc s t = LIdle).
    { intros u. destruct (lpc s u) eqn:P2; auto; (assert (J : In (inr u) (busy s)) by (apply (q_lpc s Q); congruence); rewrite Ok in J; destruct J). }
    constructor; proj.
    + rewrite Ok. cbn. lia.
    + intros x H. now rewrite P1 in H.
    + intros u. unfold fupd. destruct (Nat.eqb_spec u t) as [-> | N]; [now left|]. intros H. now rewrite P2 in H.
    + intros L. right. right.
      destruct (q_loss s Q L) as [(x & a1 & t1 & E1 & _) | [(u & r1 & E1 & _) | (E1 & _)]];
        [now rewrite P1 in E1|now rewrite P2 in E1|]. split; [exact E1|].
      repeat split; intros u *; try (rewrite P1; discriminate); unfold fupd; destruct (Nat.eqb_spec u t); try (rewrite P2; discriminate); try discriminate.
      intros [= <-]. exact E1.
  - unfold lcall in S. destruct (lpc s t) as [|f|] eqn:P; try discriminate. injection S as <-.
    assert (J : In (inr t) (busy s)) by (apply (q_lpc s Q); congruence).
    destruct (alone s (inr t) Q J) as [U1 U2].
    assert (G : forall s1, busy s1 = busy s -> lpc s1 = fupd (lpc s) t (LFin r) -> pc s1 = pc s -> loss s1 = loss s ->
              (lost (log s1) = true -> failed r = true \/ lost (log s) = true /\ r <> TOk) -> qinv s1).
    { intros s1 B1 B2 B3 B4 B5. destruct Q as [Q1 Q2 Q3 Q4]. constructor; rewrite ?B1, ?B2, ?B3, ?B4; auto.
      - intros x. unfold fupd. destruct (Nat.eqb_spec x t) as [-> | N]; [auto|apply Q3].
      - intros L. destruct (B5 L) as [Ft | [Ls Nt]]; [right; left; exists t, r; rewrite fupd_eq; auto|].
        destruct (Q4 Ls) as [(x & a1 & t1 & E1 & E2) | [(u & r1 & E1 & E2) | (E1 & E2 & E3 & E4 & E5 & E6)]].
        + exfalso. rewrite U1 in E1; congruence.
        + exfalso. assert (u = t) by (destruct (Nat.eq_dec u t); [assumption|rewrite U2 in E1; congruence]). congruence.
        + right. right. split; [exact E1|]. repeat split; auto; intros x *; unfold fupd; destruct (Nat.eqb_spec x t); try discriminate; try apply E4; try apply E6.
          congruence. }
    destruct r; apply G; auto; proj; cbn [lost]; auto; try discriminate.
    intros L. right. split; [exact L|discriminate].
  - unfold lfinish in S. destruct (lpc s t) as [| |r] eqn:P; try discriminate. injection S as <-.
    assert (J : In (inr t) (busy s)) by (apply (q_lpc s Q); congruence).
    destruct (alone s (inr t) Q J) as [U1 U2].
    apply qinv_processed with (s := s) (x := inr t); auto; proj.
    + intros e. apply U1. discriminate.
    + intros u. unfold fupd. destruct (Nat.eqb_spec u t); [reflexivity|]. apply U2. congruence.
  - unfold done in S. destruct (find_trace _ _); [|discriminate]. injection S as <-. apply qinv_same with (s := s); auto.
  - destruct (has_rt c); [|discriminate]. injection S as <-. apply qinv_same with (s := s); auto; unfold off; destruct (enabled s); reflexivity.
Qed.

Lemma reach_qinv c ls s : reach c one_at_a_time ls s -> qinv s.
Proof.
  induction 1 as [|ls s l s' R IH O S]; [|eapply qinv_step; eauto].
  apply qinv_idle; auto.
Qed.

Lemma lost_app h2 h3 : (forall b, ~ In (ERec b) h2) -> lost (h2 ++ ELost :: h3) = true.
Proof.
  induction h2 as [|x h2 IH]; cbn; intros H; [reflexivity|].
  destruct x; try (apply IH; intros b' J; apply (H b'); now right); try reflexivity. exfalso. eapply H. now left.
Qed.

(** Missing from C91_loss_announced_partial: trace calls that overlap; see
    C91_loss_not_announced_refuted. *)
Theorem C91_loss_announced_partial c ls s h1 b h2 h3 : reach c one_at_a_time ls s -> log s = h1 ++ ERec b :: h2 ++ ELost :: h3 ->
  (forall b', ~ In (ERec b') h2) -> b = true.
Proof.
  intros R L N. apply (lost_app h2 h3) in N. remember (h2 ++ ELost :: h3) as h eqn:Eh. clear Eh h2 h3. revert h1 L.
  induction R as [|ls s l s' R IH O S]; intros h1 L; [destruct h1; discriminate|].
  destruct (step_news c s l s' S) as (new & E & Nw). rewrite E in L.
  destruct (split_new new (log s) h1 h _ L) as [(g & H1 & H2) | (g & H1)]; [|eapply IH; eauto].
  assert (K : In (ERec b) new) by (rewrite H1; apply in_elt).
  pose proof (reach_qinv _ _ _ R) as Q.
  destruct Nw as [l new Hq | e a r n new Hd Hq | e f n a Hp Hf | e f n a id k Hp | e f n a id k t Hp Ht | t f Hp | t f r Hp Hr]; subst h.
  - match goal with A : forallb quiet_event _ = true |- _ => rewrite forallb_forall in A; apply A in K; discriminate end.
  - apply in_app_or in K as [K | [K | []]]; [|discriminate].
    match goal with A : forallb quiet_event _ = true |- _ => rewrite forallb_forall in A; apply A in K; discriminate end.
  - destruct K as [K | []]; discriminate.
  - destruct K as [K | [K | []]]; [|discriminate]. injection K as ->.
    destruct h1 as [|y [|z h1]]; cbn in H1; try (destruct h1; discriminate); try discriminate.
    injection H1 as <-. cbn [app lost] in N.
    assert (J : In (inl e) (busy s)) by (apply (q_pc s Q); congruence). destruct (alone s (inl e) Q J) as [U1 U2].
    destruct (q_loss s Q N) as [(x & a1 & t1 & E1 & E2) | [(u & r1 & E1 & E2) | (E1 & E2 & E3 & E4 & E5 & E6)]].
    + exfalso. assert (x = e) by (destruct (el_dec x e); [assumption|rewrite U1 in E1; congruence]). congruence.
    + exfalso. rewrite U2 in E1; congruence.
    + eapply E3; eauto.
  - destruct K as [K | []]; discriminate.
  - destruct K as [K | []]. injection K as ->.
    destruct h1 as [|y h1]; cbn in H1; [|destruct h1; discriminate]. injection H1 as <-. cbn [app] in N.
    assert (J : In (inr t) (busy s)) by (apply (q_lpc s Q); congruence). destruct (alone s (inr t) Q J) as [U1 U2].
    destruct (q_loss s Q N) as [(x & a1 & t1 & E1 & E2) | [(u & r1 & E1 & E2) | (E1 & E2 & E3 & E4 & E5 & E6)]].
    + exfalso. rewrite U1 in E1; congruence.
    + exfalso. assert (u = t) by (destruct (Nat.eq_dec u t); [assumption|rewrite U2 in E1; congruence]). congruence.
    + eapply E4; eauto.
  - destruct K as [K | []]; discriminate.
Qed.

(** ** C93 (part): registration is never repeated *)

(** No element has the reserved name: then a registration that the tracer
    answered with a recoverable error is never repeated (C93_retry_refuted). *)
Theorem C93_never_retried c ls s n : reach c any ls s -> (forall e, dummy c e = false) -> ~ In (ERetry n) (log s).
Proof.
  intros R D. induction R as [|ls s l s' R IH O S]; [auto|]. destruct (step_news c s l s' S) as (new & -> & N).
  intros J. apply in_app_or in J as [J | J]; [|auto].
  assert (Q : forall l, forallb quiet_event l = true -> ~ In (ERetry n) l).
  { intros q H J'. rewrite forallb_forall in H. apply H in J'. discriminate. }
  inversion N; subst; try (now apply Q in J); try (cbn in J; intuition discriminate).
  rewrite D in *. discriminate.
Qed.

(** ** C95: switching off is final *)

Definition silent (x : event) : bool := match x with EOffer _ _ | EStop _ | EDone _ => true | _ => false end.

Lemma off_enabled c ok ls s : reach c ok ls s -> In EOff (log s) -> enabled s = false.
Proof.
  assert (E : forall s l s', step c s l = Some s' -> enabled s = false -> enabled s' = false).
  { intros x l y S En. destruct (enabled y) eqn:Ey; [|reflexivity]. rewrite <- En. symmetry. destruct (lesser l) eqn:L.
    - now apply (l_en _ _ (lesser_frame c x l y L S)).
    - unfold step in S. destruct (down x); [discriminate|]. destruct l; try discriminate L.
      + destruct (created x o); [discriminate|]. injection S as <-.
        assert (Fr : nframe x (each (new_element c) (members c o) x)).
        { apply (each_inv (nframe x)); [|constructor; repeat split]. intros e z _ [A]. destruct (new_element_frame c e z) as [[B] _].
          decompose [and] A. decompose [and] B. constructor. repeat split; congruence. }
        destruct Fr as [Fr]. decompose [and] Fr. revert Ey. proj. congruence.
      + destruct (created x o && negb (offered x o)); [|discriminate]. injection S as <-. apply (offer_frame c o r bad ok0 x). exact Ey.
      + destruct (offered x o && forallb (idle x) (members c o)); [|discriminate]. injection S as <-. apply (stop_frame2 c o t x). exact Ey. }
  assert (N : forall s l s', step c s l = Some s' -> enabled s' = true -> ~ In EOff (log s) -> ~ In EOff (log s')).
  2:{ intros R. destruct (enabled s) eqn:En; [|auto]. intros J. exfalso. revert En J.
      induction R as [|ls s l s' R IH O S]; [auto|]. intros En J. revert J. apply (N s l s' S En). intros J. apply IH; auto.
      destruct (enabled s) eqn:E1; [reflexivity|]. rewrite (E s l s' S E1) in En. discriminate. }
  clear. intros s l s' S En N J.
  assert (O : forall x, enabled (off x) = false) by (intros x; unfold off; destruct (enabled x) eqn:X; [reflexivity|exact X]).
  assert (Pr : forall t x, enabled (fst (process t x)) = true -> log (fst (process t x)) = log x).
  { intros t x. unfold process. destruct t; cbn [fst]; auto; try (destruct (_ <=? _)%N; cbn [fst]); auto; rewrite O; discriminate. }
  unfold step in S. destruct (down s); [discriminate|]. destruct l.
  - destruct (created s o); [discriminate|]. injection S as <-.
    assert (Fr : nframe s (each (new_element c) (members c o) s)).
    { apply (each_inv (nframe s)); [|constructor; repeat split]. intros e z _ [A]. destruct (new_element_frame c e z) as [[B] _].
      decompose [and] A. decompose [and] B. constructor. repeat split; congruence. }
    destruct Fr as [Fr]. decompose [and] Fr. revert J. proj. congruence.
  - destruct (created s o && negb (offered s o)); [|discriminate]. injection S as <-. revert En J. unfold offer. cbv zeta.
    set (s1 := if any_point c o s then register (inst c o) (noffers s) r (next_offer o s) else next_offer o s).
    assert (Q1 : enabled s1 = true -> ~ In EOff (log s1)).
    { unfold s1. destruct (any_point c o s); [|auto]. unfold register. proj. destruct (enabled s) eqn:E; [|proj; auto].
      destruct r; cbv zeta; proj; auto.
      - destruct (hmap s (inst c o)); proj; intros _ [X | X]; try discriminate; auto.
      - destruct (cmap s (inst c o)); proj; intros _ [X | X]; try discriminate; auto.
      - intros _ [X | X]; try discriminate; auto.
      - rewrite O. discriminate. }
    clearbody s1. destruct (down s1); [exact Q1|].
    destruct (prepares_frame c bad o s1) as [_ P2 _]. set (s2 := each (prepare c bad) (members c o) s1) in *. clearbody s2.
    assert (Q2 : enabled s2 = true -> ~ In EOff (log s2)) by (destruct P2 as [[-> ->] | (_ & _ & ->)]; [exact Q1|discriminate]).
    destruct (down s2); [exact Q2|]. destruct ok; proj.
    + intros En [X | X]; [discriminate|]. now apply Q2.
    + destruct (unprepares_frame c o s2) as [U1 _ _]. decompose [and] U1. intros En [X | X]; [discriminate|]. apply Q2; congruence.
  - destruct (offered s o && forallb (idle s) (members c o)); [|discriminate]. injection S as <-. revert En J. unfold stop. cbv zeta.
    destruct (unprepares_frame c o s) as [U1 _ _]. set (s1 := each unprepare (members c o) s) in *. clearbody s1. decompose [and] U1. clear U1.
    assert (L : ~ In EOff (log s1)) by congruence. destruct (any_point c o s1); proj; [|intros _ [X | X]; [discriminate|auto]].
    unfold unregister. destruct (enabled s1) eqn:E; [|intros _ [X | X]; [discriminate|auto]].
    destruct (hmap s1 (inst c o)); proj; [|intros _ [X | X]; [discriminate|auto]]. destruct t.
    + rewrite O. discriminate.
    + proj. intros _ [X | [X | X]]; try discriminate; auto.
  - destruct (_ && _ && _); [|discriminate]. injection S as <-. revert En J. unfold send, points_off, point_off.
    destruct (if a then pa s e else ps s e); [|auto]. destruct (tlog s e); [|auto].
    destruct (enabled s) eqn:E; [|proj; congruence]. destruct (hmap s _); [auto|].
    destruct (if dummy c e then _ else _); [|destruct a; auto]. cbv zeta.
    destruct r; try (destruct a; proj; (intros _ [X | X]; [discriminate|auto]); fail).
    proj. rewrite O. discriminate.
  - unfold emplace in S. destruct (pc s e); try discriminate. destruct (_ <=? _); [injection S as <-; auto|].
    destruct (first_free _ _ _); injection S as <-; [auto|]. destruct J as [J | J]; [discriminate|auto].
  - unfold call in S. destruct (pc s e); try discriminate. cbv zeta in S. destruct t; injection S as <-; cbn in J; intuition discriminate.
  - unfold finish in S. destruct (pc s e) as [| | |a t]; try discriminate.
    specialize (Pr t (end_ (inl e) (go e Idle s))). destruct (process t _) as [s1 v]. injection S as <-. cbn [fst] in Pr.
    apply N. revert Pr. proj. intros Pr. rewrite <- Pr; destruct v, a; assumption.
  - destruct (has_rt c); [|discriminate]. unfold lsend in S. destruct (lpc s t); try discriminate. injection S as <-. destruct (enabled s); auto.
  - unfold lcall in S. destruct (lpc s t); try discriminate. injection S as <-. destruct r; cbn in J; intuition discriminate.
  - unfold lfinish in S. destruct (lpc s t) as [| |r]; try discriminate. injection S as <-.
    rewrite (Pr r _ En) in J. auto.
  - unfold done in S. destruct (find_trace _ _); [|discriminate]. injection S as <-. destruct J as [J | J]; [discriminate|auto].
  - destruct (has_rt c); [|discriminate]. injection S as <-. rewrite O in En. discriminate.
Qed.

Lemma off_id s : enabled s = false -> off s = s.
Proof. unfold off. now intros ->. Qed.

Lemma silent_step c s l s' : enabled s = false -> (forall e, pc s e = Idle) -> (forall t, lpc s t = LIdle) -> step c s l = Some s' ->
  enabled s' = false /\ (forall e, pc s' e = Idle) /\ (forall t, lpc s' t = LIdle) /\ exists new, log s' = new ++ log s /\ forallb silent new = true.
Proof.
  intros E P L S. unfold step in S. destruct (down s); [discriminate|]. destruct l.
  - destruct (created s o); [discriminate|]. injection S as <-.
    assert (Fr : nframe s (each (new_element c) (members c o) s)).
    { apply (each_inv (nframe s)); [|constructor; repeat split]. intros e z _ [A]. destruct (new_element_frame c e z) as [[B] _].
      decompose [and] A. decompose [and] B. constructor. repeat split; congruence. }
    destruct Fr as [Fr]. decompose [and] Fr. proj. repeat split; try (intros; congruence). exists []. split; [cbn; congruence|reflexivity].
  - destruct (created s o && negb (offered s o)); [|discriminate]. injection S as <-.
    destruct (offer_frame c o r bad ok s) as (A1 & A2 & A3 & A4 & A5 & A6 & A7 & A8 & A9 & A10 & A11 & A12 & _).
    assert (En : enabled (offer c o r bad ok s) = false) by (destruct (enabled (offer c o r bad ok s)) eqn:X; [rewrite A12 in E by reflexivity; discriminate|reflexivity]).
    split; [exact En|]. split; [intros; rewrite A6; auto|]. split; [intros; rewrite A10; auto|]. clear - E.
    unfold offer. cbv zeta.
    replace (if any_point c o s then register (inst c o) (noffers s) r (next_offer o s) else next_offer o s) with (next_offer o s)
      by (destruct (any_point c o s); [unfold register; proj; rewrite E|]; reflexivity).
    destruct (down (next_offer o s)); [exists []; auto|].
    destruct (prepares_frame c bad o (next_offer o s)) as [_ P2 _]. set (s2 := each (prepare c bad) (members c o) (next_offer o s)) in *. clearbody s2.
    revert P2. proj. intros [[P2 _] | (_ & X & _)]; [|congruence].
    destruct (down s2); [exists []; auto|]. destruct ok; proj.
    + exists [EOffer o (noffers s)]. split; [cbn; congruence|reflexivity].
    + destruct (unprepares_frame c o s2) as [U1 _ _]. decompose [and] U1. exists [EStop o]. split; [cbn; congruence|reflexivity].
  - destruct (offered s o && forallb (idle s) (members c o)); [|discriminate]. injection S as <-. unfold stop. cbv zeta.
    destruct (unprepares_frame c o s) as [U1 _ _]. set (s1 := each unprepare (members c o) s) in *. clearbody s1. decompose [and] U1. clear U1.
    replace (if any_point c o s1 then unregister (inst c o) t s1 else s1) with s1
      by (destruct (any_point c o s1); [unfold unregister; replace (enabled s1) with false by congruence|]; reflexivity).
    proj. repeat split; try (intros; congruence). exists [EStop o]. split; [cbn; congruence|reflexivity].
  - destruct (_ && _ && _); [|discriminate]. injection S as <-. unfold send, points_off. rewrite E.
    destruct (if a then _ else _); [|repeat split; auto; exists []; auto]. destruct (tlog s e); proj; repeat split; auto; exists []; auto.
  - unfold emplace in S. rewrite P in S. discriminate.
  - unfold call in S. rewrite P in S. discriminate.
  - unfold finish in S. rewrite P in S. discriminate.
  - destruct (has_rt c); [|discriminate]. unfold lsend in S. rewrite L, E in S. injection S as <-. repeat split; auto. exists []; auto.
  - unfold lcall in S. rewrite L in S. discriminate.
  - unfold lfinish in S. rewrite L in S. discriminate.
  - unfold done in S. destruct (find_trace _ _); [|discriminate]. injection S as <-. proj. repeat split; auto. exists [EDone k]. auto.
  - destruct (has_rt c); [|discriminate]. injection S as <-. rewrite off_id by exact E. repeat split; auto. exists []; auto.
Qed.

(** Once tracing was switched off and the trace calls in progress at that time
    have returned, the tracer is not called again: whatever happens, only
    offers, stops and the tracer's own reports follow. *)
Theorem C95_off_is_final c ls s more s' : reach c any ls s -> In EOff (log s) ->
  (forall e, pc s e = Idle) -> (forall t, lpc s t = LIdle) -> runs c s more = Some s' ->
  exists new, log s' = new ++ log s /\ forallb silent new = true.
Proof.
  intros R J P L. apply (off_enabled _ _ _ _ R) in J. clear R ls. revert s J P L.
  induction more as [|l more IH]; cbn; intros s E P L S.
  - injection S as <-. exists []. auto.
  - destruct (step c s l) as [s1|] eqn:S1; [|discriminate].
    destruct (silent_step c s l s1 E P L S1) as (E1 & P1 & L1 & n1 & N1 & N2).
    destruct (IH s1 E1 P1 L1 S) as (n2 & N3 & N4). exists (n2 ++ n1). rewrite N3, N1, app_assoc, forallb_app, N2, N4. auto.
Qed.

(** ** C92 and C93: calm histories *)

Record cinv (c : cfg) (s : st) : Prop := {
  c_cmap : forall i, cmap s i = None;
  c_one : forall o p, offered s o = true -> offered s p = true -> inst c o = inst c p -> o = p;
  c_hmap : forall i n, enabled s = true -> hmap s i = Some n ->
           exists o, offered s o = true /\ inst c o = i /\ cur s o = n /\ any_point c o s = true;
  c_now : forall o, offered s o = true -> offer_now o (log s) = Some (cur s o);
  c_meta : forall e f n a, pc s e = Meta f n a -> cur s (fst e) = n;
  c_placed : forall e f n a id k, pc s e = Placed f n a id k -> cur s (fst e) = n;
  c_fin : forall e a, pc s e <> Fin a TFinal;
  c_tlog : forall e, offered s (fst e) = true -> snd e < nel c (fst e) -> ps s e = true \/ pa s e = true -> tlog s e = true
}.

Lemma any_point_ext c o s s' : (forall e, fst e = o -> ps s' e = ps s e /\ pa s' e = pa s e) -> any_point c o s' = any_point c o s.
Proof.
  intros H. unfold any_point. f_equal. assert (G : forall l, (forall e, In e l -> fst e = o) ->
    existsb (fun e => ps s' e || pa s' e) l = existsb (fun e => ps s e || pa s e) l).
  { induction l as [|e l IH]; cbn; intros M; [reflexivity|]. rewrite IH by auto. destruct (H e) as [-> ->]; auto. }
  apply G. intros e J. now apply members_in in J.
Qed.

Lemma lesser_now c s l s' o : lesser l = true -> step c s l = Some s' -> offer_now o (log s') = offer_now o (log s).
Proof.
  assert (Of : forall x, offer_now o (log (off x)) = offer_now o (log x)) by (intros x; unfold off; destruct (enabled x); reflexivity).
  assert (Pr : forall t x, offer_now o (log (fst (process t x))) = offer_now o (log x)).
  { intros t x. unfold process. destruct t; cbn [fst]; auto; try (destruct (_ <=? _)%N; cbn [fst]); rewrite ?Of; auto. }
  intros L S. unfold step in S. destruct (down s); [discriminate|]. destruct l; try discriminate L.
  - destruct (_ && _ && _); [|discriminate]. injection S as <-. unfold send, points_off, point_off.
    repeat match goal with |- context [match ?x with _ => _ end] => destruct x end; proj; rewrite ?Of; reflexivity.
  - unfold emplace in S. destruct (pc s e); try discriminate. destruct (_ <=? _); [injection S as <-; auto|].
    destruct (first_free _ _ _); injection S as <-; auto.
  - unfold call in S. destruct (pc s e); try discriminate. cbv zeta in S. destruct t; injection S as <-; reflexivity.
  - unfold finish in S. destruct (pc s e) as [| | |a t]; try discriminate.
    specialize (Pr t (end_ (inl e) (go e Idle s))). destruct (process t _) as [s1 v]. injection S as <-. cbn [fst] in Pr.
    destruct v, a; exact Pr.
  - destruct (has_rt c); [|discriminate]. unfold lsend in S. destruct (lpc s t); try discriminate. injection S as <-. destruct (enabled s); auto.
  - unfold lcall in S. destruct (lpc s t); try discriminate. injection S as <-. destruct r; auto.
  - unfold lfinish in S. destruct (lpc s t) as [| |r]; try discriminate. injection S as <-. exact (Pr r (end_ (inr t) (lgo t LIdle s))).
  - unfold done in S. destruct (find_trace _ _); [|discriminate]. injection S as <-. reflexivity.
  - destruct (has_rt c); [|discriminate]. injection S as <-. apply Of.
Qed.

(** Steps of one kind: no offer, stop or construction, the maps are kept. *)
Lemma cinv_lesser c s s' : cinv c s -> lframe s s' -> (forall o, offer_now o (log s') = offer_now o (log s)) ->
  cmap s' = cmap s -> hmap s' = hmap s ->
  (forall e f n a, pc s' e = Meta f n a -> cur s (fst e) = n) ->
  (forall e f n a id k, pc s' e = Placed f n a id k -> cur s (fst e) = n) -> (forall e a, pc s' e <> Fin a TFinal) ->
  (enabled s' = true -> forall o, offered s o = true -> hmap s (inst c o) <> None -> any_point c o s' = any_point c o s) -> cinv c s'.
Proof.
  intros [C1 C2 C3 C4 C5 C6 C7 C8] [A P1 P2 En] Nw Cm Hm Me Pl Fi Ap. decompose [and] A.
  assert (Ec : cur s' = cur s) by congruence. assert (Eo : offered s' = offered s) by congruence. assert (Et : tlog s' = tlog s) by congruence.
  constructor; rewrite ?Ec, ?Eo, ?Et, ?Cm, ?Hm; auto.
  - intros i n E Hi. destruct (C3 i n (En E) Hi) as (o & O1 & O2 & O3 & O4). exists o. rewrite Ap; auto. rewrite O2. congruence.
  - intros o Ho. rewrite Nw. auto.
  - intros e O M Pt. apply C8; auto. destruct Pt; auto.
Qed.

Lemma cinv_send c s e a r : inv c s -> cinv c s -> offered s (fst e) = true ->
  snd e < nel c (fst e) -> cinv c (send c e a r s) /\ down (send c e a r s) = down s.
Proof.
  intros I C O M. pose proof C as [C1 C2 C3 C4 C5 C6 C7 C8].
  assert (Pt : forall s1, lframe s s1 -> (forall o, offer_now o (log s1) = offer_now o (log s)) -> cmap s1 = cmap s -> hmap s1 = hmap s -> pc s1 = pc s ->
    (enabled s1 = true -> forall o, offered s o = true -> hmap s (inst c o) <> None -> any_point c o s1 = any_point c o s) -> cinv c s1).
  { intros s1 F Nw Cm Hm Pc Ap. apply cinv_lesser with (s := s); auto; rewrite Pc; auto. }
  unfold send. destruct (if a then pa s e else ps s e) eqn:X; [|auto].
  assert (Y : ps s e = true \/ pa s e = true) by (destruct a; auto).
  rewrite (C8 e O M Y). destruct (enabled s) eqn:E.
  2:{ split; [|reflexivity]. apply Pt; auto; [apply lframe_all|]. unfold points_off. proj. congruence. }
  destruct (hmap s (inst c (fst e))) as [n|] eqn:H.
  { split; [|reflexivity]. apply cinv_lesser with (s := s); auto; proj.
    - constructor; auto 10.
    - intros x f n' a'. unfold eupd. destruct (el_eqb_spec x e) as [-> | N]; [|apply C5]. intros [= _ <- _].
      destruct (C3 _ _ eq_refl H) as (o & O1 & O2 & O3 & _). rewrite (C2 (fst e) o) by auto. exact O3.
    - intros x f n' a' id k. unfold eupd. destruct (el_eqb_spec x e); [discriminate|apply C6].
    - intros x a'. unfold eupd. destruct (el_eqb_spec x e); [discriminate|apply C7]. }
  rewrite C1. replace (if dummy c e then None else None) with (@None nat) by (destruct (dummy c e); reflexivity).
  split; [|destruct a; reflexivity]. apply Pt; [apply lframe_point|destruct a; reflexivity..|].
  intros _ o Ho Hh. apply any_point_ext. intros x Ex.
  assert (x <> e) by congruence. unfold point_off. destruct a; proj; rewrite !eupd_neq by assumption; auto.
Qed.

Lemma cinv_fin c s e p : cinv c s -> (forall f n a, p <> Meta f n a) -> (forall f n a id k, p = Placed f n a id k -> cur s (fst e) = n) ->
  (forall a, p <> Fin a TFinal) ->
  forall s1, lframe s s1 -> (forall o, offer_now o (log s1) = offer_now o (log s)) -> cmap s1 = cmap s -> hmap s1 = hmap s ->
  pc s1 = eupd (pc s) e p -> (enabled s1 = true -> forall o, any_point c o s1 = any_point c o s) -> cinv c s1.
Proof.
  intros C P1 P2 P3 s1 F Nw Cm Hm Pc Ap. pose proof C as [C1 C2 C3 C4 C5 C6 C7 C8].
  apply cinv_lesser with (s := s); auto; rewrite Pc.
  - intros x f n a. unfold eupd. destruct (el_eqb_spec x e) as [-> | N]; [intros H; now apply P1 in H|apply C5].
  - intros x f n a id k. unfold eupd. destruct (el_eqb_spec x e) as [-> | N]; [apply P2|apply C6].
  - intros x a. unfold eupd. destruct (el_eqb_spec x e) as [-> | N]; [apply P3|apply C7].
Qed.

Lemma process_calm t s : t <> TFinal -> let s' := fst (process t s) in
  cmap s' = cmap s /\ hmap s' = hmap s /\ pc s' = pc s /\ ps s' = ps s /\ pa s' = pa s /\ down s' = down s /\
  snd (process t s) <> One /\ (snd (process t s) = All -> enabled s' = false) /\ (forall o, offer_now o (log s') = offer_now o (log s)).
Proof.
  intros T. unfold process, off. destruct t; cbn [fst snd]; try contradiction;
    try (destruct (_ <=? _)%N; cbn [fst snd]); proj; destruct (enabled s) eqn:E; proj; repeat split; auto; discriminate.
Qed.

Lemma calm_lesser c s l s' : inv c s -> cinv c s -> lesser l = true -> calm c s l -> step c s l = Some s' -> down s = None ->
  cinv c s' /\ down s' = None.
Proof.
  intros I C L Ok S0 D. assert (S := S0). unfold step in S. rewrite D in S.
  assert (Nw : forall o, offer_now o (log s') = offer_now o (log s)) by (intros; eapply lesser_now; eauto).
  pose proof (lesser_frame c s l s' L S0) as F.
  destruct l; try discriminate L.
  - destruct (offered s (fst e) && (snd e <? nel c (fst e)) && idle s e) eqn:X; [|discriminate]. injection S as <-.
    apply andb_true_iff in X as [X _]. apply andb_true_iff in X as [X1 X2]. apply Nat.ltb_lt in X2.
    destruct (cinv_send c s e a r I C X1 X2) as [G1 G2]. split; [exact G1|congruence].
  - unfold emplace in S. destruct (pc s e) as [|f n a| |] eqn:P; try discriminate.
    assert (P1 : pc s e <> Idle) by congruence. destruct (i_pc c s I e P1) as (_ & _ & R0 & _).
    destruct (i_rng c s I e) as [Z | [_ Z]]; [lia|].
    replace (nxt s <=? fst (rng s e)) with false in S by (symmetry; apply Nat.leb_gt; lia).
    pose proof (c_meta c s C _ _ _ _ P) as Hc.
    destruct (first_free _ _ _) as [id|]; injection S as <-; (split; [|exact D]).
    + apply cinv_fin with (s := s) (e := e) (p := Placed f n a id (ntraces s)); auto; try discriminate. intros * [= _ <- _ _ _]. exact Hc.
    + apply cinv_fin with (s := s) (e := e) (p := Idle); auto; discriminate.
  - unfold call in S. destruct (pc s e) as [| |f n a id k|] eqn:P; try discriminate. cbv zeta in S.
    assert (T : t <> TFinal) by (intros ->; exact Ok).
    destruct t; try contradiction; injection S as <-; (split; [|exact D]).
    + apply cinv_fin with (s := s) (e := e) (p := Fin a TOk); auto; discriminate.
    + apply cinv_fin with (s := s) (e := e) (p := Fin a TRecoverable); auto; discriminate.
    + apply cinv_fin with (s := s) (e := e) (p := Fin a TTerminal); auto; discriminate.
  - unfold finish in S. destruct (pc s e) as [| | |a t] eqn:P; try discriminate.
    assert (T : t <> TFinal) by (intros ->; now apply (c_fin c s C) in P).
    destruct (process_calm t (end_ (inl e) (go e Idle s)) T) as (Q1 & Q2 & Q3 & Q4 & Q5 & Q6 & Q7 & Q8 & _).
    destruct (process t (end_ (inl e) (go e Idle s))) as [s1 v]. cbn [fst snd] in *. injection S as <-.
    revert Q1 Q2 Q3 Q4 Q5 Q6. proj. intros. destruct v; try contradiction.
    + split; [|congruence]. apply cinv_fin with (s := s) (e := e) (p := Idle); auto; try discriminate.
      intros _ o. apply any_point_ext. intros x _. rewrite Q4, Q5. auto.
    + split; [|unfold points_off; proj; congruence]. apply cinv_fin with (s := s) (e := e) (p := Idle); auto; try discriminate.
      unfold points_off. proj. rewrite Q8 by reflexivity. discriminate.
  - destruct (has_rt c); [|discriminate]. unfold lsend in S. destruct (lpc s t); try discriminate. injection S as <-.
    destruct (enabled s); [|auto]. split; [|exact D]. apply cinv_lesser with (s := s); auto; apply C.
  - unfold lcall in S. destruct (lpc s t); try discriminate. injection S as <-. split; [|destruct r; exact D].
    destruct r; apply cinv_lesser with (s := s); auto; apply C.
  - unfold lfinish in S. destruct (lpc s t) as [|f|r] eqn:P; try discriminate. injection S as <-.
    assert (G : let s' := fst (process r (end_ (inr t) (lgo t LIdle s))) in
      cmap s' = cmap s /\ hmap s' = hmap s /\ pc s' = pc s /\ ps s' = ps s /\ pa s' = pa s /\ down s' = down s).
    { unfold process, off. destruct r; cbn [fst]; auto 10; try (destruct (_ <=? _)%N; cbn [fst]); proj; destruct (enabled s); auto 10. }
    destruct G as (G1 & G2 & G3 & G4 & G5 & G6). split; [|congruence].
    apply cinv_lesser with (s := s); auto; rewrite ?G3; try apply C.
    intros _ o _ _. apply any_point_ext. intros x _. rewrite G4, G5. auto.
  - unfold done in S. destruct (find_trace _ _); [|discriminate]. injection S as <-. split; [|exact D].
    apply cinv_lesser with (s := s); auto; apply C.
  - destruct (has_rt c); [|discriminate]. injection S as <-. split; [|rewrite off_down; exact D].
    destruct (off_frame s) as [E | [_ E]]; rewrite E in *; [exact C|]. apply cinv_lesser with (s := s); auto; try apply C.
Qed.

(** Offering. *)
Lemma prepares_calm c bad o s : forallb (fun e => negb (bad e)) (members c o) = true -> down s = None ->
  let s' := each (prepare c bad) (members c o) s in
  down s' = None /\ log s' = log s /\ enabled s' = enabled s /\
  (forall e, In e (members c o) -> tlog s' e = bp s' e || getter c e).
Proof.
  intros B D. rewrite forallb_forall in B. cbv zeta.
  assert (G : down (each (prepare c bad) (members c o) s) = None /\ log (each (prepare c bad) (members c o) s) = log s /\
              enabled (each (prepare c bad) (members c o) s) = enabled s).
  { apply (each_inv (fun x => down x = None /\ log x = log s /\ enabled x = enabled s)); [|auto].
    intros e x J (G1 & G2 & G3). apply B in J. apply negb_true_iff in J. unfold prepare. rewrite J. cbn [andb].
    cbv zeta. destruct (has_rt c && enabled x); proj; auto. }
  destruct G as (G1 & G2 & G3). repeat split; auto.
  refine (proj2 (each_all (fun _ => True) (fun e x => tlog x e = bp x e || getter c e) (prepare c bad) (members c o) s _ _ _ Logic.I D G1)); auto.
  - intros e x J _ _ _. apply B in J. apply negb_true_iff in J. unfold prepare. rewrite J. cbn [andb]. cbv zeta.
    destruct (has_rt c && enabled x); proj; rewrite !eupd_eq; reflexivity.
  - intros e y x _ J _ _ H. apply B in J. apply negb_true_iff in J. unfold prepare. rewrite J. cbn [andb]. cbv zeta.
    destruct (has_rt c && enabled x); proj; unfold eupd; destruct (el_eqb_spec e y) as [-> | N]; auto; rewrite el_eqb_refl; reflexivity.
Qed.

Lemma calm_offer c s o r bad ok : inv c s -> cinv c s -> created s o = true -> offered s o = false -> calm c s (Offer o r bad ok) ->
  down s = None -> cinv c (offer c o r bad ok s) /\ down (offer c o r bad ok s) = None.
Proof.
  intros I C Cr O (Ok1 & Ok2 & Ok3) D. pose proof C as [C1 C2 C3 C4 C5 C6 C7 C8].
  destruct (offer_frame c o r bad ok s) as (A1 & A2 & A3 & A4 & A5 & A6 & A7 & A8 & A9 & A10 & A11 & A12 & A13 & A14 & A15 & A16).
  pose proof (offer_inv c o r bad ok s O I) as I'.
  (* the state after the registration *)
  assert (Hf : any_point c o s = true -> enabled s = true -> hmap s (inst c o) = None).
  { intros _ E. destruct (hmap s (inst c o)) as [n|] eqn:H; [|reflexivity].
    destruct (C3 _ _ E H) as (p & O1 & O2 & _). exfalso. eapply Ok1; eauto. }
  set (s1 := if any_point c o s then register (inst c o) (noffers s) r (next_offer o s) else next_offer o s).
  assert (F1 : down s1 = None /\ cmap s1 = cmap s /\ (forall q, offer_now q (log s1) = offer_now q (log s)) /\ cur s1 = fupd (cur s) o (noffers s) /\
               offered s1 = offered s /\ enabled s1 = enabled s /\
               (hmap s1 = hmap s \/ any_point c o s = true /\ ok = true /\ hmap s1 = fupd (hmap s) (inst c o) (Some (noffers s)))).
  { unfold s1. destruct (any_point c o s) eqn:Ap; [|proj; repeat split; auto]. destruct (Ok3 eq_refl) as (Y1 & Y2 & Y3).
    unfold register. proj. rewrite Y2. destruct r; try contradiction; cbv zeta; proj; try rewrite (Hf eq_refl Y2); proj; repeat split; auto. }
  destruct F1 as (F1 & F2 & F3 & F4 & F5 & F6 & F7).
  destruct (prepares_calm c bad o s1 Ok2 F1) as (P1 & P2 & P3 & P4).
  destruct (prepares_frame c bad o s1) as [P5 _ _]. decompose [and] P5. clear P5.
  revert A1 A2 A3 A4 A5 A6 A7 A8 A9 A10 A11 A12 A13 A14 A15 A16 I'. unfold offer. cbv zeta. fold s1. rewrite F1, P1.
  set (s2 := each (prepare c bad) (members c o) s1) in *. clearbody s1 s2. intros.
  assert (Anyp : forall s', ps s' = ps s -> pa s' = pa s -> forall p, any_point c p s' = any_point c p s).
  { intros s' E1 E2 p. apply any_point_ext. intros e _. rewrite E1, E2. auto. }
  assert (Pi : forall e, pc s e <> Idle -> fst e <> o).
  { intros e P E. apply (i_pc c s I) in P as [P _]. rewrite E in P. congruence. }
  destruct ok.
  - split; [|exact P1]. constructor; proj.
    + intros i. replace (cmap s2) with (cmap s) by congruence. apply C1.
    + replace (offered s2) with (offered s) by congruence. intros p q. unfold fupd.
      destruct (Nat.eqb_spec p o) as [-> | Np], (Nat.eqb_spec q o) as [-> | Nq]; auto; intros Hp Hq E; exfalso.
      * eapply (Ok1 q); eauto.
      * eapply (Ok1 p); eauto.
    + intros i n E. replace (hmap s2) with (hmap s1) by congruence. intros Hn.
      replace (cur s2) with (fupd (cur s) o (noffers s)) by congruence. replace (offered s2) with (offered s) by congruence.
      rewrite (Anyp _ A4 A5) || idtac.
      destruct F7 as [F7 | (G1 & _ & F7)]; rewrite F7 in Hn.
      * destruct (C3 i n) as (p & O1 & O2 & O3 & O4); [congruence|exact Hn|]. exists p. assert (p <> o) by congruence.
        rewrite !fupd_neq by assumption. rewrite Anyp by auto. auto.
      * unfold fupd in Hn. destruct (Nat.eqb_spec i (inst c o)) as [-> | Ni].
        -- injection Hn as <-. exists o. rewrite !fupd_eq. rewrite Anyp by auto. auto.
        -- destruct (C3 i n) as (p & O1 & O2 & O3 & O4); [congruence|exact Hn|]. exists p. assert (p <> o) by congruence.
           rewrite !fupd_neq by assumption. rewrite Anyp by auto. auto.
    + intros p. replace (offered s2) with (offered s) by congruence. replace (cur s2) with (fupd (cur s) o (noffers s)) by congruence.
      cbn [offer_now]. unfold fupd. destruct (Nat.eqb_spec p o) as [-> | N].
      * rewrite Nat.eqb_refl. reflexivity.
      * destruct (Nat.eqb_spec o p); [congruence|]. rewrite P2, F3. auto.
    + replace (pc s2) with (pc s) by congruence. intros e f n a P. replace (cur s2) with (fupd (cur s) o (noffers s)) by congruence.
      rewrite fupd_neq by (apply Pi; congruence). eauto.
    + replace (pc s2) with (pc s) by congruence. intros e f n a id k P. replace (cur s2) with (fupd (cur s) o (noffers s)) by congruence.
      rewrite fupd_neq by (apply Pi; congruence). eauto.
    + replace (pc s2) with (pc s) by congruence. exact C7.
    + intros e Ho M Y. destruct (Nat.eq_dec (fst e) o) as [E | N].
      * rewrite P4 by (apply members_in; rewrite <- E; auto). apply orb_true_iff. left. apply (i_pts c _ I' e); [exact Y|]. proj.
        revert Y. replace (ps s2) with (ps s) by congruence. replace (pa s2) with (pa s) by congruence. intros Y.
        destruct (i_pts c s I e Y) as (_ & Hr & _).
        assert (Ap : any_point c o s = true).
        { unfold any_point. rewrite Hr. apply existsb_exists. exists e. split; [apply members_in; rewrite <- E; auto|].
          apply orb_true_iff. exact Y. }
        destruct (Ok3 Ap) as (_ & En & _). congruence.
      * revert A15. proj. intros A15. destruct (A15 e N) as [-> _]. apply C8; auto.
        -- revert Ho. rewrite fupd_neq by exact N. congruence.
        -- revert Y. replace (ps s2) with (ps s) by congruence. replace (pa s2) with (pa s) by congruence. auto.
  - assert (Ap : any_point c o s = false) by (destruct (any_point c o s) eqn:Ap; [destruct (Ok3 eq_refl); discriminate|reflexivity]).
    destruct F7 as [F7 | (_ & G & _)]; [|discriminate].
    destruct (unprepares_frame c o s2) as [U1 _ U3]. set (s3 := each unprepare (members c o) s2) in *. clearbody s3. decompose [and] U1. clear U1.
    split; [|proj; congruence]. constructor; proj.
    + intros i. replace (cmap s3) with (cmap s) by congruence. apply C1.
    + replace (offered s3) with (offered s) by congruence. exact C2.
    + intros i n E. replace (hmap s3) with (hmap s) by congruence. intros Hn. destruct (C3 i n) as (p & O1 & O2 & O3 & O4); [congruence|exact Hn|].
      exists p. assert (p <> o) by congruence. replace (offered s3) with (offered s) by congruence.
      replace (cur s3) with (fupd (cur s) o (noffers s)) by congruence. rewrite fupd_neq by assumption. rewrite Anyp by auto. auto.
    + replace (offered s3) with (offered s) by congruence. intros p Hp. assert (p <> o) by congruence. cbn [offer_now].
      destruct (Nat.eqb_spec o p); [congruence|]. replace (cur s3) with (fupd (cur s) o (noffers s)) by congruence. rewrite fupd_neq by assumption.
      replace (log s3) with (log s1) by congruence. rewrite F3. auto.
    + replace (pc s3) with (pc s) by congruence. intros e f n a P. replace (cur s3) with (fupd (cur s) o (noffers s)) by congruence.
      rewrite fupd_neq by (apply Pi; congruence). eauto.
    + replace (pc s3) with (pc s) by congruence. intros e f n a id k P. replace (cur s3) with (fupd (cur s) o (noffers s)) by congruence.
      rewrite fupd_neq by (apply Pi; congruence). eauto.
    + replace (pc s3) with (pc s) by congruence. exact C7.
    + intros e Ho M Y. assert (N : fst e <> o) by congruence.
      revert A15. proj. intros A15. destruct (A15 e N) as [-> _]. apply C8; auto; [congruence|].
      revert Y. replace (ps s3) with (ps s) by congruence. replace (pa s3) with (pa s) by congruence. auto.
Qed.

Lemma calm_stop c s o t : inv c s -> cinv c s -> offered s o = true -> (forall e, fst e = o -> pc s e = Idle) -> cinv c (stop c o t s).
Proof.
  intros I C O Pi. pose proof C as [C1 C2 C3 C4 C5 C6 C7 C8].
  destruct (stop_frame2 c o t s) as (B1 & B2 & B3 & B4 & B5).
  assert (F : ps (stop c o t s) = ps s /\ pa (stop c o t s) = pa s /\ pc (stop c o t s) = pc s /\ cur (stop c o t s) = cur s /\
              (forall i, cmap (stop c o t s) i = None)).
  { destruct (stop_frame c o t s) as [A | A]; decompose [and] A; (split; [assumption|]; split; [assumption|]; split; [assumption|];
      split; [assumption|]); intros i; match goal with E : cmap _ = _ |- _ => rewrite E end; [apply C1|].
    unfold fupd. destruct (_ =? _); auto. }
  destruct F as (F1 & F2 & F3 & F4 & F5).
  assert (Lg : forall p, p <> o -> offer_now p (log (stop c o t s)) = offer_now p (log s)).
  { intros p N. unfold stop. cbv zeta. proj. cbn [offer_now]. destruct (Nat.eqb_spec o p); [congruence|].
    destruct (unprepares_frame c o s) as [U1 _ _]. set (s1 := each unprepare (members c o) s) in *. clearbody s1. decompose [and] U1. clear U1.
    replace (log s) with (log s1) by congruence. destruct (any_point c o s1); [|reflexivity]. unfold unregister.
    destruct (enabled s1) eqn:E; [|reflexivity]. destruct (hmap s1 (inst c o)); [|reflexivity]. destruct t; unfold off; proj; rewrite ?E; reflexivity. }
  assert (Hm : enabled (stop c o t s) = true -> forall i n, hmap (stop c o t s) i = Some n -> hmap s i = Some n /\ (any_point c o s = true -> i <> inst c o)).
  { unfold stop. cbv zeta. proj. destruct (unprepares_frame c o s) as [U1 _ _]. set (s1 := each unprepare (members c o) s) in *. clearbody s1.
    decompose [and] U1. clear U1. assert (Ea : any_point c o s1 = any_point c o s).
    { apply any_point_ext. intros e _. split; congruence. }
    rewrite Ea. destruct (any_point c o s); [|intros _ i n; split; [congruence|discriminate]].
    unfold unregister. destruct (enabled s1) eqn:E; [|congruence]. replace (hmap s1) with (hmap s) by congruence.
    destruct (hmap s (inst c o)) eqn:H'.
    - assert (G : forall i m, fupd (hmap s) (inst c o) None i = Some m -> hmap s i = Some m /\ (true = true -> i <> inst c o)).
      { intros i m. unfold fupd. destruct (Nat.eqb_spec i (inst c o)); [discriminate|auto]. }
      destruct t; unfold off; proj; rewrite ?E; proj; [discriminate|]. replace (hmap s1) with (hmap s) by congruence. intros _. exact G.
    - proj. replace (hmap s1) with (hmap s) by congruence. intros _ i n Hn. split; [exact Hn|]. intros _ ->. congruence. }
  constructor; rewrite ?B2, ?F3, ?F4; auto.
  - intros p q. unfold fupd. destruct (p =? o); [discriminate|]. destruct (q =? o); [discriminate|]. apply C2.
  - intros i n E Hn. destruct (Hm E i n Hn) as [Hs Hi]. destruct (C3 i n (B1 E) Hs) as (p & O1 & O2 & O3 & O4).
    assert (N : p <> o) by (intros ->; apply (Hi O4); congruence). exists p. rewrite fupd_neq by exact N.
    rewrite (any_point_ext c p s); [auto|]. intros e _. rewrite F1, F2. auto.
  - intros p. unfold fupd. destruct (Nat.eqb_spec p o); [discriminate|]. intros Hp. rewrite Lg by assumption. auto.
  - intros e. unfold fupd. destruct (Nat.eqb_spec (fst e) o) as [E | N]; [discriminate|]. rewrite F1, F2.
    destruct (B4 e N) as [-> _]. apply C8.
Qed.

(** Constructing. *)
Lemma new_elements_up c l : (forall e, fs c e || fa c e = true -> 0 < slots c e) -> forall s, down s = None ->
  nxt s + list_sum (map (fun e => if fs c e || fa c e then slots c e else 0) l) <= total c ->
  down (each (new_element c) l s) = None /\
  nxt (each (new_element c) l s) <= nxt s + list_sum (map (fun e => if fs c e || fa c e then slots c e else 0) l).
Proof.
  assert (Ls : forall a b, list_sum (a :: b) = a + list_sum b) by reflexivity.
  intros Sl. induction l as [|e l IH]; cbn [each map]; intros s D T; [split; [exact D|cbn; lia]|].
  rewrite Ls in T |- *.
  set (g := fun e => if fs c e || fa c e then slots c e else 0) in *.
  assert (Hg : g e = if fs c e || fa c e then slots c e else 0) by reflexivity. clearbody g.
  assert (G : down (new_element c e s) = None /\ nxt (new_element c e s) <= nxt s + g e).
  { unfold new_element. destruct (has_rt c && enabled s); [|split; [exact D|lia]]. destruct (fs c e || fa c e) eqn:X; [|split; [exact D|lia]].
    specialize (Sl e X). destruct (Nat.eqb_spec (slots c e) 0); [lia|]. destruct (Nat.leb_spec (total c) (nxt s + slots c e - 1)); [lia|].
    proj. split; [exact D|lia]. }
  destruct G as [G1 G2]. rewrite G1. destruct (IH (new_element c e s) G1) as [K1 K2]; [lia|]. split; [exact K1|]. lia.
Qed.

Lemma needed_app c a b : needed c (a ++ b) = needed c a + needed c b.
Proof. induction a as [|l a IH]; cbn; [reflexivity|]. destruct l; lia. Qed.

Lemma calm_create c s o : inv c s -> fresh c s -> cinv c s -> created s o = false ->
  cinv c (set_created o (each (new_element c) (members c o) s)).
Proof.
  intros I F [C1 C2 C3 C4 C5 C6 C7 C8] Cr. destruct (nframe_step c o s I F Cr) as (_ & [G2] & G3). decompose [and] G2. clear G2.
  set (s1 := each (new_element c) (members c o) s) in *. clearbody s1.
  assert (N : forall p, offered s p = true -> p <> o) by (intros p Hp ->; apply (f_off c s F) in Hp; congruence).
  assert (Ap : forall p, p <> o -> any_point c p (set_created o s1) = any_point c p s).
  { intros p Np. apply any_point_ext. intros e E. destruct (G3 e) as (_ & -> & ->); [congruence|auto]. }
  constructor; proj.
  - intros i. replace (cmap s1) with (cmap s) by congruence. auto.
  - replace (offered s1) with (offered s) by congruence. auto.
  - replace (hmap s1) with (hmap s) by congruence. replace (enabled s1) with (enabled s) by congruence.
    replace (offered s1) with (offered s) by congruence. replace (cur s1) with (cur s) by congruence.
    intros i n E Hn. destruct (C3 i n E Hn) as (p & O1 & O2 & O3 & O4). exists p. rewrite Ap by auto. auto.
  - replace (offered s1) with (offered s) by congruence. replace (cur s1) with (cur s) by congruence.
    replace (log s1) with (log s) by congruence. auto.
  - replace (pc s1) with (pc s) by congruence. replace (cur s1) with (cur s) by congruence. auto.
  - replace (pc s1) with (pc s) by congruence. replace (cur s1) with (cur s) by congruence. auto.
  - replace (pc s1) with (pc s) by congruence. auto.
  - replace (offered s1) with (offered s) by congruence. replace (tlog s1) with (tlog s) by congruence.
    intros e Ho M. destruct (G3 e (N _ Ho)) as (_ & E1 & E2). revert E1 E2. proj. intros -> ->. auto.
Qed.

Lemma step_down c s l s' : step c s l = Some s' -> down s = None.
Proof. unfold step. destruct (down s); [discriminate|auto]. Qed.

Lemma stop_nxt c o t s : nxt (stop c o t s) = nxt s.
Proof. destruct (stop_frame c o t s) as [A | A]; decompose [and] A; assumption. Qed.

Lemma idle_object c s o : inv c s -> forallb (idle s) (members c o) = true -> forall e, fst e = o -> pc s e = Idle.
Proof.
  intros I X2 e E. rewrite forallb_forall in X2.
  destruct (pc s e) eqn:Z; auto; (assert (Y : pc s e <> Idle) by congruence; apply (i_pc c s I) in Y as (_ & Y & _);
        rewrite E in Y; assert (W : idle s e = true) by (apply X2, members_in; auto); unfold idle in W; rewrite Z in W; discriminate).
Qed.

Lemma init_cinv c : cinv c init.
Proof. constructor; cbn; auto; discriminate. Qed.

(** The invariant needs no condition on the number of slots. *)
Lemma reach_cinv c ls s : reach c (calm c) ls s -> cinv c s.
Proof.
  induction 1 as [|ls s l s' R C Ok S]; [apply init_cinv|].
  destruct (reach_inv _ _ _ _ R) as [I F]. pose proof (step_down c s l s' S) as D.
  destruct (lesser l) eqn:L; [eapply calm_lesser; eauto|].
  unfold step in S. rewrite D in S. destruct l; try discriminate L.
  - destruct (created s o) eqn:Cr; [discriminate|]. injection S as <-. now apply calm_create.
  - destruct (created s o) eqn:Cr; [|discriminate]. destruct (offered s o) eqn:O; [discriminate|]. injection S as <-.
    now apply calm_offer.
  - destruct (offered s o && forallb (idle s) (members c o)) eqn:X; [|discriminate]. injection S as <-.
    apply andb_true_iff in X as [X1 X2]. apply calm_stop; auto. now apply (idle_object c).
Qed.

Lemma reach_up c ls s : (forall e, fs c e || fa c e = true -> 0 < slots c e) -> reach c (calm c) ls s -> needed c ls <= total c ->
  down s = None /\ nxt s <= needed c ls.
Proof.
  intros Sl R. induction R as [|ls s l s' R IH Ok S]; [cbn; auto|]. rewrite needed_app. intros T.
  destruct IH as [D N]; [lia|]. destruct (reach_inv _ _ _ _ R) as [I F]. pose proof (reach_cinv _ _ _ R) as C.
  destruct (lesser l) eqn:L.
  { split; [eapply calm_lesser; eauto|]. destruct (l_same _ _ (lesser_frame c s l s' L S)) as [-> _]. lia. }
  unfold step in S. rewrite D in S. destruct l; try discriminate L.
  - destruct (created s o) eqn:Cr; [discriminate|]. injection S as <-. proj. cbn [needed] in T |- *. unfold need in *.
    destruct (new_elements_up c (members c o) Sl s D) as [G1 G2]; [lia|]. split; [exact G1|]. lia.
  - destruct (created s o) eqn:Cr; [|discriminate]. destruct (offered s o) eqn:O; [discriminate|]. injection S as <-.
    split; [now apply calm_offer|]. destruct (offer_frame c o r bad ok s) as (_ & _ & -> & _). lia.
  - destruct (offered s o && forallb (idle s) (members c o)) eqn:X; [|discriminate]. injection S as <-.
    split; [destruct (stop_frame2 c o t s) as (_ & _ & -> & _); exact D|]. rewrite stop_nxt. lia.
Qed.

(** Missing from C92_keeps_running_partial: histories that are not calm; see
    C92_offer_after_failed_offer_refuted and the other C92_..._refuted. *)
Theorem C92_keeps_running_partial c ls s : (forall e, fs c e || fa c e = true -> 0 < slots c e) -> needed c ls <= total c ->
  reach c (calm c) ls s -> down s = None.
Proof. intros Sl T R. now apply (reach_up c ls s Sl R). Qed.

(** Missing from C93_current_memory_partial: histories that are not calm; see
    C93_old_memory_refuted. *)
Theorem C93_current_memory_partial c ls s h1 k e id n h2 : reach c (calm c) ls s -> log s = h1 ++ ETraced k e id n :: h2 ->
  offer_now (fst e) h2 = Some n.
Proof.
  intros R. revert h1 h2. induction R as [|ls s l s' R IH O S]; intros h1 h2 L; [destruct h1; discriminate|].
  destruct (step_news c s l s' S) as (new & E & N). rewrite E in L.
  destruct (split_new new (log s) h1 h2 _ L) as [(h & H1 & ->) | (h & H1)]; [|eapply IH; eauto].
  assert (K : In (ETraced k e id n) new) by (rewrite H1; apply in_elt).
  destruct (in_news_traced c s l new k e id n N K) as (-> & f & a & P & H2). rewrite H2 in H1.
  assert (h = []) as ->.
  { destruct h1 as [|y [|z h1]]; cbn in H1; try discriminate; injection H1; intros; subst; auto. destruct h1; discriminate. }
  cbn [app]. destruct (reach_inv _ _ _ _ R) as [I _]. pose proof (reach_cinv _ _ _ R) as C.
  assert (P1 : pc s e <> Idle) by congruence. destruct (i_pc c s I e P1) as (Of & _).
  rewrite (c_now c s C _ Of). f_equal. eapply c_placed; eauto.
Qed.

(** ** The theorems' hypotheses can be met *)

(** Two slots, two traces, a stop after the tracer's reports, and another offer. *)
Definition cd : cfg :=
  mkCfg true 4 (fun _ => 1) (fun o => o) (fun _ => true) (fun _ => true) (fun _ => 2) (fun _ => false) (fun _ => false).
Definition good_run : list label :=
  [Create 0; Create 1; Offer 0 ROk none true; Offer 1 ROk none true] ++ trace1 e0 TOk ++ trace1 e0 TOk ++ trace1 (1, 0) TOk ++
  [Done 0; Done 1; Stop 0 false; Offer 0 ROk none true] ++ trace1 e0 TOk.

Lemma any_reach_in c ok ls s : allowed c ok init ls -> runs c init ls = Some s -> reach c ok ls s.
Proof. intros A X. exact (runs_reach_from c ok ls s [] init (reach_init c ok) A X). Qed.

Definition good_state : st := match runs cd init good_run with Some s => s | None => init end.

Example good_prompt : reach cd prompt good_run good_state.
Proof. apply any_reach_in; vm_compute; auto 60. Qed.
Example good_one : reach cd one_at_a_time good_run good_state.
Proof. apply any_reach_in; vm_compute; auto 60. Qed.
Example good_any : reach cd any good_run good_state.
Proof. apply any_reach_in; vm_compute; auto 60. Qed.

Lemma good_calm_offer o r n (s : st) : (forall p, offered s p = true -> p <> o) -> enabled s = true ->
  match r with RRecoverable | RTerminal => False | _ => True end -> n = none -> calm cd s (Offer o r n true).
Proof.
  intros H E R ->. split; [exact H|]. split; [reflexivity|]. intros _. auto.
Qed.
Example good_calm : reach cd (calm cd) good_run good_state.
Proof.
  apply any_reach_in; [|vm_compute; reflexivity].
  unfold good_run, trace1. cbn [app allowed].
  repeat (match goal with
    | |- calm _ _ _ /\ _ => split; [first [exact Logic.I | apply good_calm_offer; [|vm_compute; reflexivity|exact Logic.I|reflexivity];
          let p := fresh in intros p; destruct p as [|[|p]]; vm_compute; congruence]|]
    | |- match step ?c ?s ?l with _ => _ end => let x := eval vm_compute in (step c s l) in change (step c s l) with x; cbv iota
    end). exact Logic.I.
Qed.

Example good_needed : needed cd good_run <= total cd /\ forall e, fs cd e || fa cd e = true -> 0 < slots cd e.
Proof. split; [vm_compute; lia|]. intros; cbn; lia. Qed.

(** The third trace of element (0, 0) and that of (1, 0) are in use. *)
Example good_in_use : in_use 3 e0 (log good_state) = true /\ in_use 2 (1, 0) (log good_state) = true /\ in_use 0 e0 (log good_state) = false.
Proof. vm_compute. auto. Qed.
Example good_traces : exists h1 h2 id, log good_state = h1 ++ ETraced 3 e0 id 2 :: h2 /\ offer_now 0 h2 = Some 2 /\ In (ETraced 0 e0 id 0) h2.
Proof.
  exists [ERec false]. eexists. exists 0. split; [vm_compute; reflexivity|]. split; [vm_compute; reflexivity|]. vm_compute. auto 20.
Qed.

(** A sample is dropped because both slots are in use; the next record says so. *)
Definition full_run : list label :=
  [Create 0; Offer 0 ROk none true] ++ trace1 e0 TOk ++ trace1 e0 TOk ++ [Send e0 true NotTyped; Emplace e0; LSend 0; LCall 0 TOk].
Example full_drop : exists s s', reach cd any (firstn 11 full_run) s /\ step cd s (Emplace e0) = Some s' /\ log s' = ELost :: log s.
Proof.
  destruct (runs cd init (firstn 11 full_run)) as [s|] eqn:X; [|vm_compute in X; discriminate].
  exists s. eexists. split; [apply any_reach_in; [eapply allowed_any; eauto|exact X]|].
  vm_compute in X. injection X as <-. split; [vm_compute; reflexivity|reflexivity].
Qed.
Example full_announced : exists s h3, reach cd one_at_a_time full_run s /\ log s = [] ++ ERec true :: [] ++ ELost :: h3.
Proof.
  destruct (runs cd init full_run) as [s|] eqn:X; [|vm_compute in X; discriminate].
  exists s. eexists. split; [apply any_reach_in; [vm_compute; auto 60|exact X]|]. vm_compute in X. injection X as <-. reflexivity.
Qed.

(** Switching off, and what follows. *)
Definition off_run : list label := [Create 0; Offer 0 ROk none true] ++ trace1 e0 TOk ++ trace1 e0 TTerminal.
Example off_silent : exists s s', reach cd any off_run s /\ In EOff (log s) /\ (forall e, pc s e = Idle) /\ (forall t, lpc s t = LIdle) /\
  runs cd s [Send e0 false NotTyped; LSend 0; Done 0; Stop 0 false; Offer 0 ROk none true] = Some s' /\
  log s' = [EOffer 0 1; EStop 0; EDone 0] ++ log s.
Proof.
  destruct (runs cd init off_run) as [s|] eqn:X; [|vm_compute in X; discriminate].
  exists s. eexists. split; [apply any_reach_in; [eapply allowed_any; eauto|exact X]|].
  vm_compute in X. injection X as <-. split; [cbn; auto|]. split.
  { intros [[|o] [|i]]; reflexivity. }
  split; [reflexivity|]. split; [vm_compute; reflexivity|]. reflexivity.
Qed.

Print Assumptions C89_late_report_refuted.
Print Assumptions C89_held_partial.
Print Assumptions C89_released.
Print Assumptions C90_same_id_refuted.
Print Assumptions C90_dropped_only_when_full.
Print Assumptions C90_ids_distinct_partial.
Print Assumptions C91_loss_not_announced_refuted.
Print Assumptions C91_loss_announced_partial.
Print Assumptions C92_offer_after_failed_offer_refuted.
Print Assumptions C92_recoverable_twice_refuted.
Print Assumptions C92_skeleton_again_refuted.
Print Assumptions C92_send_after_off_refuted.
Print Assumptions C92_fatal_registration_refuted.
Print Assumptions C92_failed_rollback_refuted.
Print Assumptions C92_rollback_without_tracing_refuted.
Print Assumptions C92_refused_then_new_skeleton_refuted.
Print Assumptions C92_keeps_running_partial.
Print Assumptions C93_old_memory_refuted.
Print Assumptions C93_retry_refuted.
Print Assumptions C93_never_retried.
Print Assumptions C93_current_memory_partial.
Print Assumptions C95_off_is_final.
