(** * Offering again and retrying: C87 *)

From Coq Require Import List Arith Bool Lia.
From Verif Require Import Base OfferModel OfferProps.
Import ListNotations.

(** ** Retrying, and offering again *)

(** No consumer uses the service when a StopOfferService, or the roll-back of
    an OfferService, removes the memory. *)
Definition alone (s : st) (l : label) : bool :=
  match at_ s, l with
  | StopBind, Go _ | Undo [] _, Go _ => negb (users s)
  | _, _ => true
  end.

Record ainv (c : cfg) (s : st) : Prop := {
  a_jflag : flag s = on (log s);
  a_j : jpc c s;
  a_prep : forall f, eprep s f = eflag s f;
  a_gone : forall f, f < n c -> gone s f = false;
  a_users : users s = true -> mem s <> None;
  a_disc : disc s = true -> flag s = true /\ (at_ s = Idle \/ at_ s = Withdraw);
  a_pc : match at_ s with
         | Idle => if flag s then marker s = true /\ mem s <> None else held s = false
         | Preparing => held s = false
         | Deferred k => marker s = true /\ mem s <> None /\ initv s k <> None
         | Withdraw => marker s = true /\ mem s <> None /\ forall j, j < n c -> eflag s j = true
         | Terminated | Undefined => False
         | _ => marker s = true /\ mem s <> None
         end
}.

Lemma ainv_step c s l s' : ainv c s -> in_time s l = true -> not_twice s l = true -> room s l = true -> alone s l = true ->
  step c s l = Some s' -> ainv c s'.
Proof.
  intros [F J P G U D A] IT NT RM AL S. destruct (jpc_step _ _ _ _ F J NT RM S) as [F' J'].
  assert (DG : disc s = true -> running s = true -> mem s <> None /\ forall j, j < n c -> eflag s j = true).
  { intros X _. destruct (D X) as [Y [Z|Z]]; rewrite Z in A.
    - unfold jpc, all_offered in J. rewrite Z, Y in *. tauto.
    - tauto. }
  unfold alone in AL. unfold jpc, none_offered, all_offered in J.
  destruct l; branch S.
  all: try (rewrite E in A, J); try (rewrite AT in A, J).
  all: try (unfold not_twice in NT; rewrite <- F in NT; apply negb_true_iff in NT; rewrite NT in *).
  all: try (cbn [in_time] in IT).
  all: constructor; try assumption; proj; try assumption; clear F' J'.
  all: try (intros; fu; auto; fail).
  all: try tauto; try congruence.
  all: ands.
  all: try (intros X; try (exfalso; congruence); destruct (D X) as [Y [Z|Z]]; exfalso; congruence).
  all: try (intros f0; unfold fupd; match goal with |- context [?a =? ?b] => destruct (a =? b) end; [reflexivity | apply P]).
  all: try match goal with H : flag ?x = true |- context [flag ?x] => rewrite H | H : flag ?x = false |- context [flag ?x] => rewrite H end.
  all: try (repeat split; auto; congruence).
  all: try match goal with H : at_ ?x = _ |- context [at_ ?x] => rewrite H end.
  all: try (split; [auto | congruence]; fail).
  all: try (intros f0 Hf0; rewrite P; match goal with |- ?b = false => destruct b eqn:Z; [|reflexivity] end; exfalso;
            match goal with H : forall j, j < _ -> eflag _ j = _ |- _ => specialize (H _ Hf0); congruence
                          | H : forall j, j < _ -> eflag _ j = true -> _ |- _ => exact (H _ Hf0 Z) end).
  all: try (exfalso; match goal with AL : negb _ = true, H : users _ = true |- _ => rewrite H in AL; discriminate AL end).
  all: try (exfalso; match goal with H : getter _ ?k && gone _ ?k = true |- _ => apply andb_true_iff in H as [_ H]; rewrite G in H by assumption; discriminate H end).
  all: try (exfalso; destruct (DG IT) as [? Q]; [assumption|]; rewrite P, Q in * by assumption; discriminate).
  all: try (destruct (DG IT) as [? Q]; [assumption|]).
  all: try assumption.
  all: try (destruct (at_ s); try contradiction; try (destruct (flag s)); ands; repeat split; auto; try contradiction; congruence).
  - rewrite G in H0 by assumption; discriminate.
  - rewrite G in * by assumption; discriminate.
  - discriminate AL.
  - discriminate AL.
  - destruct (flag s); ands; [contradiction|].
    match goal with H : forall k, _ -> eflag s k = false |- _ => rewrite H in E1 by assumption end. discriminate.
Qed.

Definition undisturbed (s : st) (l : label) : bool := in_time s l && not_twice s l && room s l && alone s l.

Lemma ainv_reach c ls s : run c undisturbed ls s -> ainv c s.
Proof.
  induction 1 as [|ls s l s' R IH O S].
  - constructor; cbn; auto; try discriminate. repeat split.
  - unfold undisturbed in O. apply andb_true_iff in O as [O O4]. apply andb_true_iff in O as [O O3]. apply andb_true_iff in O as [O1 O2].
    eapply ainv_step; eauto.
Qed.

(** C87: offering, failing for any reason of the operating system's, trying
    again, stopping and offering again any number of times never terminates
    the provider.  Partial: the conditions of [undisturbed]; other than for
    C87_keeps_running_partial, OfferService may be called again while no
    consumer is attached.  Dropping any one of the conditions refutes it:
    C87_get_while_stopping_refuted, C87_offer_twice_refuted,
    C87_retry_undefined_refuted, C87_offer_after_consumer_left_refuted. *)
Theorem C87_again_partial c ls s : run c undisturbed ls s -> running s = true.
Proof.
  intros R. pose proof (a_pc _ _ (ainv_reach _ _ _ R)) as P. unfold running. destruct (at_ s); try reflexivity; contradiction.
Qed.

(** C88 and the memory: whenever the service is offered, its memory exists and
    the events refer to it; when it is not, the process has let go of the
    memory, so that nothing of an earlier offer is left. *)
Theorem C88_memory_partial c ls s : run c undisturbed ls s -> at_ s = Idle ->
  if on (log s) then mem s <> None /\ forall k, k < n c -> eprep s k = true
  else held s = false /\ forall k, k < n c -> eprep s k = false /\ gone s k = false.
Proof.
  intros R X. destruct (ainv_reach _ _ _ R) as [F J P G U D A]. unfold jpc, all_offered, none_offered in J. rewrite X in *. rewrite <- F.
  destruct (flag s); ands.
  - split; [assumption|]. intros. rewrite P. auto.
  - split; [assumption|]. intros. rewrite P. auto.
Qed.

(** The operating system fails, then the field has no value, then OfferService
    succeeds; the service is used, stopped, and offered again. *)
Definition retries : list label :=
  [Offer; Go false; Offer] ++ g 3 ++ [Update 0 5 true; Offer] ++ g 6 ++ [Attach; Get 0; Detach; Stop] ++ g 4 ++ [Offer] ++ g 5.

Example retries_met : exists s, run one undisturbed retries s /\
  on (log s) = true /\ at_ s = Idle /\ In (Got 0 (Some 5)) (log s) /\
  In (OfferFailed BindingFailure) (log s) /\ In (OfferFailed FieldValueIsNotValid) (log s) /\ In Stopped (log s).
Proof.
  apply (ex_run one _ _ (fun s => on (log s) = true /\ at_ s = Idle /\ In (Got 0 (Some 5)) (log s) /\
    In (OfferFailed BindingFailure) (log s) /\ In (OfferFailed FieldValueIsNotValid) (log s) /\ In Stopped (log s)));
    vm_compute; [reflexivity|]. tauto.
Qed.

Print Assumptions C87_again_partial.
Print Assumptions C88_memory_partial.
