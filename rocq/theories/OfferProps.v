(** * Offering a service with fields: C86, C87, C88 *)

From Coq Require Import List Arith Bool Lia.
From Verif Require Import Base OfferModel.
Import ListNotations.

(** ** Specification vocabulary, over the history of API calls *)

(** The field's current value as the application knows it: the value of the
    latest Update that succeeded or Set that was accepted since the process
    started. *)
Fixpoint last (f : nat) (h : list event) : option nat :=
  match h with
  | [] => None
  | Started :: _ => None
  | Updated g v :: r | SetDone g v :: r => if g =? f then Some v else last f r
  | _ :: r => last f r
  end.

(** A set handler has been registered since the process started. *)
Fixpoint has_handler (f : nat) (h : list event) : bool :=
  match h with
  | [] => false
  | Started :: _ => false
  | Registered g :: r => (g =? f) || has_handler f r
  | _ :: r => has_handler f r
  end.

(** The service is offered: the latest successful OfferService was not
    followed by StopOfferService or the end of the process. *)
Fixpoint on (h : list event) : bool :=
  match h with
  | [] => false
  | Offered :: _ => true
  | Stopped :: _ | Started :: _ => false
  | _ :: r => on r
  end.

(** OfferService has not been called in this process. *)
Fixpoint first_offer (h : list event) : bool :=
  match h with
  | [] => true
  | Started :: _ => true
  | Offered :: _ | OfferFailed _ :: _ => false
  | _ :: r => first_offer r
  end.

(** ** Conditions on the environment *)

Definition any (_ : st) (_ : label) : bool := true.

(** Consumers' calls are executed only while the service is announced. *)
Definition in_time (s : st) (l : label) : bool :=
  match l with Get _ | Set_ _ _ _ => disc s | _ => true end.

(** The provider calls OfferService only while the service is not offered. *)
Definition not_twice (s : st) (l : label) : bool :=
  match l with Offer => negb (on (log s)) | _ => true end.

(** A slot is free for a field's first value. *)
Definition room (s : st) (l : label) : bool :=
  match at_ s, l with Deferred _, Go ok => ok | _, _ => true end.

(** When OfferService runs again in a process, a consumer still uses the
    service's memory. *)
Definition kept (s : st) (l : label) : bool :=
  match at_ s, l with Preparing, Go _ => first_offer (log s) || users s | _, _ => true end.

Definition run (c : cfg) (ok : st -> label -> bool) := reach c (fun s l => ok s l = true).

(** ** Executing lists of labels *)

Fixpoint runs (c : cfg) (s : st) (ls : list label) : option st :=
  match ls with
  | [] => Some s
  | l :: r => match step c s l with Some s1 => runs c s1 r | None => None end
  end.

Fixpoint allowed (c : cfg) (ok : st -> label -> bool) (s : st) (ls : list label) : bool :=
  match ls with
  | [] => true
  | l :: r => ok s l && match step c s l with Some s1 => allowed c ok s1 r | None => false end
  end.

Lemma runs_reach_from c ok ls s' : forall ps s, run c ok ps s -> allowed c ok s ls = true -> runs c s ls = Some s' ->
  run c ok (ps ++ ls) s'.
Proof.
  induction ls as [|l ls IH]; intros ps s R A X; cbn in *.
  - injection X as <-. now rewrite app_nil_r.
  - apply andb_true_iff in A as [O A]. destruct (step c s l) as [s1|] eqn:S; [|discriminate].
    replace (ps ++ l :: ls) with ((ps ++ [l]) ++ ls) by (rewrite <- app_assoc; reflexivity).
    apply (IH _ s1); try assumption. econstructor; eauto.
Qed.

Lemma runs_reach c ok ls s' : allowed c ok init ls = true -> runs c init ls = Some s' -> run c ok ls s'.
Proof. intros A X. apply (runs_reach_from c ok ls s' [] init); try assumption. constructor. Qed.

Lemma runs_app c ls1 : forall s ls2, runs c s (ls1 ++ ls2) = match runs c s ls1 with Some s1 => runs c s1 ls2 | None => None end.
Proof. induction ls1 as [|l r IH]; intros; cbn; [reflexivity|]. destruct (step c s l); [apply IH|reflexivity]. Qed.

Ltac proj := cbn [at_ flag eflag eprep called initv seth geth gone mem held marker meth disc users log go note set_flag set_elem
                  set_called set_init set_seth set_geth set_shm set_meth set_disc set_users] in *.

Lemma guards_in c k j : In j (guards c k) <-> j < k.
Proof.
  unfold guards. rewrite in_app_iff, !filter_In, in_seq.
  destruct (is_field c j); cbn; intuition (try lia; try discriminate).
Qed.

(** Every effect of a label, one case per branch of the code. *)
Ltac cases S :=
  repeat match type of S with
         | context [match ?x with _ => _ end] =>
             lazymatch x with
             | context [match _ with _ => _ end] => fail
             | _ => let E := fresh "E" in destruct x eqn:E; try discriminate S
             end
         end;
  try (injection S as <-).

(** ** What a failed and a successful OfferService say about the fields *)

Record vinv (c : cfg) (s : st) : Prop := {
  v_called : forall f, called s f = true -> last f (log s) <> None;
  v_reg : forall f, seth s f = has_handler f (log s);
  v_seth : forall f, is_field c f = true -> called s f = true -> setter c f = true -> seth s f = true;
  v_init : forall f v, initv s f = Some v -> last f (log s) <> None;
  v_none : forall f, called s f = false -> initv s f = None -> last f (log s) = None;
  v_flag : forall f, is_field c f = true -> f < n c -> eflag s f = true -> called s f = false -> initv s f <> None;
  v_pc : match at_ s with
         | Elem k => forall f, f < k -> f < n c -> is_field c f = true -> called s f = true
         | Deferred k => k < n c /\ is_field c k = true /\ (setter c k = true -> seth s k = true) /\
                         forall f, f < k -> is_field c f = true -> called s f = true
         | Verify | Announce => forall f, f < n c -> is_field c f = true -> called s f = true
         | Undo _ FieldValueIsNotValid =>
             exists f, f < n c /\ is_field c f = true /\ called s f = false /\ initv s f = None
         | _ => True
         end
}.

Lemma last_note f e s : last f (log (note e s)) = last f (e :: log s).
Proof. reflexivity. Qed.

Lemma fupd_cases {A} (f : nat -> A) i v j : (j = i /\ fupd f i v j = v) \/ (j <> i /\ fupd f i v j = f j).
Proof. unfold fupd. destruct (Nat.eqb_spec j i); auto. Qed.

(** [lia] without the boolean hypotheses, which it would case-split. *)
Ltac nlia := repeat match goal with H : @eq bool _ _ |- _ => clear H end; lia.

Ltac fu :=
  repeat match goal with
         | H : context [fupd ?f ?i ?v ?j] |- _ =>
             let X := fresh in destruct (fupd_cases f i v j) as [[? X]|[? X]]; rewrite X in *; clear X
         | |- context [fupd ?f ?i ?v ?j] =>
             let X := fresh in destruct (fupd_cases f i v j) as [[? X]|[? X]]; rewrite X in *; clear X
         end; subst.

Ltac bools :=
  repeat match goal with
         | H : _ && _ = true |- _ => apply andb_true_iff in H as [? ?]
         | H : (_ <? _) = true |- _ => apply Nat.ltb_lt in H
         | H : (_ <? _) = false |- _ => apply Nat.ltb_ge in H
         | H : idle ?s = true |- _ =>
             let E := fresh "AT" in
             assert (E : at_ s = Idle) by (unfold idle in H; destruct (at_ s); try discriminate H; reflexivity); clear H
         end.

(** Splits a step into the branches of the code. *)
Ltac branch S :=
  unfold step, step_go, bind_prepare, bind_stop, send, stop_elem, fail in S; proj; cases S; proj; bools; try congruence.

Lemma vinv_step c s l s' : vinv c s -> step c s l = Some s' -> vinv c s'.
Proof.
  intros [V1 VR V2 V3 V4 V5 V6] S. destruct l; branch S.
  all: try (rewrite E in V6); try (rewrite AT in V6).
  all: constructor; proj; try assumption; try (exact Logic.I); try (intros; discriminate); eauto.
  all: try (intros; fu; cbn [last] in *; eauto; fail).
  all: try (rewrite AT; exact Logic.I).
  all: try (intros; nlia).
  all: try (intros; fu; congruence).
  all: try (intros; cbn [last]; fu;
            try match goal with |- context [?a =? ?b] => destruct (Nat.eqb_spec a b); subst end;
            try congruence; eauto; fail).
  all: try (intros f Hf Hn Hfi; destruct (Nat.eq_dec f k); [subst; congruence | apply V6; auto; nlia]).
  all: try (repeat split; [assumption | assumption | | intros f Hf Hfi; apply V6; auto; nlia];
            match goal with H : _ && negb _ = false |- _ => apply andb_false_iff in H; destruct H as [H|H] end;
            intros; try congruence; apply negb_false_iff; assumption).
  - intros f Hn Hfi. apply V6; auto; nlia.
  - intros f Hfi Hc Hs. destruct V6 as (? & ? & V6 & _). fu; auto.
  - intros f Hf Hn Hfi. destruct V6 as (? & ? & ? & V6). fu; auto; try (apply V6; auto; nlia).
  - intros f0. cbn [has_handler]. rewrite (Nat.eqb_sym f f0), <- VR. unfold fupd. destruct (f0 =? f); reflexivity.
  - intros f0 Hc Hi. cbn [last]. destruct (Nat.eqb_spec f f0); subst; [|auto].
    exfalso. eapply V5; eauto.
Qed.

Theorem vinv_reach c ok ls s : run c ok ls s -> vinv c s.
Proof.
  induction 1 as [|ls s l s' R IH O S].
  - constructor; cbn; try discriminate; auto.
  - eapply vinv_step; eauto.
Qed.

(** ** All or nothing *)

Definition none_offered (c : cfg) (s : st) : Prop :=
  disc s = false /\ meth s = false /\ forall k, k < n c -> eflag s k = false.

Definition all_offered (c : cfg) (s : st) : Prop :=
  disc s = true /\ meth s = true /\ forall k, k < n c -> eflag s k = true.

Definition jpc (c : cfg) (s : st) : Prop :=
  match at_ s with
  | Idle => if flag s then all_offered c s else none_offered c s
  | Preparing => flag s = false /\ none_offered c s
  | Elem k => flag s = false /\ disc s = false /\ meth s = true /\ forall j, j < n c -> eflag s j = (j <? k)
  | Deferred k => flag s = false /\ disc s = false /\ meth s = true /\ k < n c /\ forall j, j < n c -> eflag s j = (j <=? k)
  | Verify | Announce => flag s = false /\ disc s = false /\ meth s = true /\ forall j, j < n c -> eflag s j = true
  | Undo l _ => flag s = false /\ disc s = false /\ forall j, j < n c -> eflag s j = true -> In j l
  | Withdraw => flag s = true
  | StopElem k => flag s = true /\ disc s = false /\ forall j, j < n c -> eflag s j = true -> k <= j
  | StopBind => flag s = true /\ disc s = false /\ forall j, j < n c -> eflag s j = false
  | Terminated | Undefined => True
  end.

Ltac ands := repeat match goal with H : _ /\ _ |- _ => destruct H end.

Lemma jpc_step c s l s' : flag s = on (log s) -> jpc c s -> not_twice s l = true -> room s l = true ->
  step c s l = Some s' -> flag s' = on (log s') /\ jpc c s'.
Proof.
  intros F J NT RM S. unfold jpc, none_offered, all_offered in *. destruct l; branch S.
  all: try (rewrite E in J); try (rewrite AT in J).
  all: try (unfold not_twice in NT; rewrite <- F in NT; apply negb_true_iff in NT; rewrite NT in J).
  all: ands; split; proj; try assumption; try reflexivity; cbn [on]; try assumption; try (exact Logic.I); try congruence.
  all: try (repeat split; auto; fail).
  all: try (rewrite E0 in *; ands; auto; fail).
  all: try (rewrite AT in *; ands; auto; fail).
  all: try (rewrite AT, E0; repeat split; auto; fail).
  all: try match goal with H : flag ?x = false |- (if flag ?x then _ else _) => rewrite H end.
  all: repeat match goal with |- _ /\ _ => split; try assumption; try reflexivity end.
  all: intros j Hj; try (intros Hf).
  all: try (apply guards_in).
  all: try match goal with
         | H : forall j, j < OfferModel.n ?c -> _, Hj : ?j < OfferModel.n ?c |- _ =>
             let X := fresh "X" in pose proof (H j Hj) as X
         end.
  all: fu; try assumption; try nlia; try congruence.
  all: repeat match goal with
         | H : context [?a <? ?b] |- _ => destruct (Nat.ltb_spec a b)
         | |- context [?a <? ?b] => destruct (Nat.ltb_spec a b)
         | |- context [?a <=? ?b] => destruct (Nat.leb_spec a b)
         | H : context [?a <=? ?b] |- _ => destruct (Nat.leb_spec a b)
         end; try nlia; try congruence.
  - unfold room in RM. rewrite E in RM. discriminate.
  - exfalso. match goal with H : eflag s k = false |- _ => rename H into Z end.
    assert (Y : eflag s k = (k <=? k)) by auto. rewrite Z, Nat.leb_refl in Y. discriminate.
  - destruct (eflag s j) eqn:Z; [|reflexivity]. exfalso; exact (X eq_refl).
  - destruct (eflag s j) eqn:Z; [|reflexivity]. exfalso; exact (X eq_refl).
  - destruct (X Hf) as [->|?]; [congruence|assumption].
  - destruct (X Hf) as [->|?]; [congruence|assumption].
  - specialize (X Hf). nlia.
  - specialize (X Hf). assert (j <> k) by congruence. nlia.
Qed.

Theorem jpc_reach c ls s : run c (fun s l => not_twice s l && room s l) ls s -> flag s = on (log s) /\ jpc c s.
Proof.
  induction 1 as [|ls s l s' R IH O S].
  - cbn. repeat split.
  - apply andb_true_iff in O as [O1 O2]. destruct IH as [F J]. eapply jpc_step; eauto.
Qed.

(** ** The current value, and no termination *)

Definition ready (c : cfg) (s : st) (j : nat) : Prop :=
  eflag s j = true /\ eprep s j = true /\ (is_field c j = true -> called s j = true).

(** [late k s]: of the fields offered earlier, none from [k] on accepts samples. *)
Definition late (c : cfg) (k : nat) (s : st) : Prop :=
  forall j, j < n c -> k <= j -> is_field c j = true -> called s j = true -> eflag s j = false.

Definition up (s : st) : Prop := marker s = true /\ mem s <> None.

Definition ipc (c : cfg) (s : st) : Prop :=
  match at_ s with
  | Idle => if flag s then disc s = true /\ meth s = true /\ up s /\ forall j, j < n c -> ready c s j
            else disc s = false /\ late c 0 s
  | Preparing => flag s = false /\ disc s = false /\ late c 0 s
  | Elem k => flag s = false /\ disc s = false /\ meth s = true /\ up s /\ (forall j, j < k -> j < n c -> ready c s j) /\ late c k s
  | Deferred k => flag s = false /\ disc s = false /\ meth s = true /\ up s /\ (forall j, j < k -> j < n c -> ready c s j) /\ late c k s /\
                  k < n c /\ is_field c k = true /\ eflag s k = true /\ eprep s k = true /\ called s k = false /\ initv s k <> None /\
                  (getter c k = true -> geth s k = true)
  | Verify | Announce => flag s = false /\ disc s = false /\ meth s = true /\ up s /\ (forall j, j < n c -> ready c s j)
  | Undo l _ => flag s = false /\ disc s = false /\ marker s = true /\
                forall j, j < n c -> is_field c j = true -> called s j = true -> eflag s j = true -> In j l
  | Withdraw => flag s = true /\ disc s = true /\ meth s = true /\ up s /\ forall j, j < n c -> ready c s j
  | StopElem k => flag s = true /\ disc s = false /\ marker s = true /\
                  forall j, j < n c -> is_field c j = true -> called s j = true -> eflag s j = true -> k <= j
  | StopBind => flag s = true /\ disc s = false /\ marker s = true /\ late c 0 s
  | Terminated | Undefined => False
  end.

Record iinv (c : cfg) (s : st) : Prop := {
  i_flag : flag s = on (log s);
  i_users : users s = true -> mem s <> None;
  i_val : forall f, f < n c -> is_field c f = true -> called s f = true -> forall m, mem s = Some m -> m f = last f (log s);
  i_init : forall f, called s f = false -> initv s f = last f (log s);
  i_geth : forall f, is_field c f = true -> called s f = true -> getter c f = true -> geth s f = true;
  i_first : first_offer (log s) = true -> at_ s = Idle \/ at_ s = Preparing ->
            held s = false /\ (forall f, called s f = false) /\ forall f, gone s f = false;
  i_gone : forall f, gone s f = true -> mem s = None;
  i_pc : ipc c s
}.

Lemma ipc_disc c s : ipc c s -> disc s = true ->
  flag s = true /\ meth s = true /\ up s /\ (forall j, j < n c -> ready c s j) /\ (at_ s = Idle \/ at_ s = Withdraw).
Proof.
  unfold ipc. intros P D. destruct (at_ s); ands; try congruence; try contradiction; auto 6.
  destruct (flag s); ands; [|congruence]. auto 6.
Qed.

Lemma ipc_mem c s m : (mem s <> None -> m <> None) -> ipc c s -> ipc c (set_shm (gone s) m (held s) (marker s) s).
Proof.
  unfold ipc, up, ready, late. proj. intros M P. destruct (at_ s); try exact P; [destruct (flag s); [|exact P]|..]; ands; repeat (split; [solve [auto]|]); auto.
Qed.

Lemma ipc_note c s e : ipc c s -> ipc c (note e s).
Proof. exact (fun P => P). Qed.

Lemma last_value (o : nat -> option nat) f w f0 x : (f0 <> f -> o f0 = x) ->
  fupd o f (Some w) f0 = (if f =? f0 then Some w else x).
Proof. intros H. destruct (Nat.eqb_spec f f0); fu; auto; congruence. Qed.

(** The invariant on memory that is gone, once [mem] was destructed. *)
Ltac gn :=
  try (let f := fresh in let G := fresh in intros f G;
       match goal with H : forall f, gone _ f = true -> _ |- _ => apply H in G; congruence end).

(** A consumer's calls. *)
Lemma iinv_call c s l s' : iinv c s -> match l with Get _ | Set_ _ _ _ => True | _ => False end -> in_time s l = true ->
  step c s l = Some s' -> iinv c s'.
Proof.
  intros [I1 I2 I3 I4 I5 I6 I8 I7] L IT S. destruct l; try contradiction; cbn [in_time] in IT.
  - pose proof (ipc_disc _ _ I7 IT) as (F & Me & [Mk U] & R & A).
    branch S; destruct (R f) as (R1 & R2 & R3); auto; try congruence.
    constructor; proj; cbn [on first_offer last]; auto; gn; try congruence. intros. apply I3; auto; congruence.
  - pose proof (ipc_disc _ _ I7 IT) as (F & Me & [Mk U] & R & A).
    branch S; destruct (R f) as (R1 & R2 & R3); auto; try congruence.
    + constructor; proj; cbn [on first_offer last]; auto; gn; try congruence.
      * intros f0 Hf Hfi C m X. injection X as <-. apply last_value. intros. apply I3; auto.
      * intros f0 C. destruct (Nat.eqb_spec f f0); subst; [rewrite R3 in C by auto; discriminate|auto].
      * apply ipc_note, ipc_mem; [congruence|assumption].
    + constructor; proj; cbn [on first_offer last]; auto; gn; try congruence. intros. apply I3; auto; congruence.
Qed.

(** The user's calls and the environment. *)
Lemma iinv_user c s l s' : iinv c s -> match l with Get _ | Set_ _ _ _ | Go _ => False | _ => True end -> not_twice s l = true ->
  step c s l = Some s' -> iinv c s'.
Proof.
  intros [I1 I2 I3 I4 I5 I6 I8 I7] L NT S. destruct l; try contradiction; branch S.
  - (* Start *) constructor; proj; cbn [on first_offer last]; auto; gn; try discriminate.
    unfold ipc, late; proj. auto.
  - (* Offer *) unfold ipc in I7. rewrite AT in I7. cbn in NT. apply negb_true_iff in NT. rewrite <- I1 in NT. rewrite NT in I7.
    constructor; proj; auto; gn. unfold ipc; proj. tauto.
  - (* Stop *) unfold ipc in I7. rewrite AT, E0 in I7. constructor; proj; auto; gn; try congruence.
    unfold ipc; proj. tauto.
  - constructor; proj; cbn [on first_offer last]; auto; gn.
  - (* Update, sent *) constructor; proj; cbn [on first_offer last]; auto; gn; try congruence.
    + intros f0 Hf Hfi C m X. injection X as <-. apply last_value. intros. apply I3; auto.
    + intros f0 C. destruct (Nat.eqb_spec f f0); subst; [congruence|auto].
    + apply ipc_note, ipc_mem; [congruence|assumption].
  - constructor; proj; cbn [on first_offer last]; auto; gn; try congruence. intros. apply I3; auto; congruence.
  - (* impossible: the element accepts samples but the memory is gone *)
    exfalso. unfold ipc, up, late in I7. rewrite AT in I7. destruct (flag s); ands.
    + contradiction.
    + assert (eflag s f = false); [|congruence].
      match goal with H : forall j, _ -> _ -> _ -> _ -> eflag s j = false |- _ => apply H; auto; nlia end.
  - constructor; proj; cbn [on first_offer last]; auto; gn.
  - (* Update before the first offer *) constructor; proj; cbn [on first_offer last]; auto; gn.
    + intros f0 Hf Hfi C m X. destruct (Nat.eqb_spec f f0); subst; [congruence|apply I3; auto].
    + intros f0 C. apply last_value. intros. auto.
    + unfold ipc, late, up, ready in *. proj. rewrite AT in *. exact I7.
  - constructor; proj; auto; gn.
  - constructor; proj; auto; gn; try congruence. intros. apply I3; auto; congruence.
  - constructor; proj; auto; gn. discriminate.
Qed.

Lemma on_first h : on h = true -> first_offer h = false.
Proof. induction h as [|[] h IH]; cbn; auto; discriminate. Qed.

(** The provider's thread. *)
Lemma iinv_go c s ok s' : iinv c s -> kept s (Go ok) = true -> step c s (Go ok) = Some s' -> iinv c s'.
Proof.
  intros [I1 I2 I3 I4 I5 I6 I8 I7] KP S. unfold kept in KP. cbn [step] in S. unfold step_go in S. unfold ipc in I7.
  destruct (at_ s) as [| |k|k| | |l e| |k| | |] eqn:AT; try discriminate S.
  - (* Preparing *)
    injection S as <-. destruct I7 as (F & D & L). unfold bind_prepare. destruct (users s) eqn:U.
    + destruct ok.
      * constructor; proj; auto; gn; [intros _ [?|?]; discriminate|]. unfold ipc, up; proj.
        repeat (split; [solve [auto]|]). split; [intros; nlia|assumption].
      * constructor; proj; cbn [on first_offer last]; auto; gn; try discriminate.
        unfold ipc; proj. rewrite F. split; assumption.
    + rewrite orb_false_r in KP. destruct (I6 KP (or_intror eq_refl)) as [Hh [Hc Hg]]. rewrite Hh. destruct ok.
      * constructor; proj; auto; gn; try discriminate;
          [intros; rewrite Hc in *; discriminate|intros _ [?|?]; discriminate|intros f Gf; rewrite Hg in Gf; discriminate|].
        unfold ipc, up; proj. repeat (split; [solve [auto; split; congruence]|]). split; [intros; nlia|assumption].
      * constructor; proj; cbn [on first_offer last]; auto; gn; try discriminate.
        -- intros; congruence.
        -- unfold ipc; proj. rewrite F. split; assumption.
  - (* Elem *)
    destruct I7 as (F & D & Me & U & R & L).
    assert (NG : gone s k = false).
    { destruct (gone s k) eqn:X; [apply I8 in X; destruct U; contradiction|reflexivity]. }
    rewrite NG, andb_false_r in S.
    assert (G : forall e, iinv c (fail c k e s)).
    { intros e. unfold fail. constructor; proj; auto; gn; [intros _ [?|?]; discriminate|].
      unfold ipc; proj. destruct U. do 3 (split; [assumption|]). intros j Hj Hfi Hc He. apply guards_in.
      destruct (Nat.lt_ge_cases j k) as [|Hk]; [assumption|]. rewrite (L j Hj Hk Hfi Hc) in He. discriminate. }
    assert (G2 : (is_field c k = true -> called s k = true) -> iinv c (go (Elem (Datatypes.S k)) (set_elem k true s))).
    { intros Hk. constructor; proj; auto; gn; [intros _ [?|?]; discriminate|].
      unfold ipc, up, ready, late; proj. destruct U. repeat (split; [solve [auto]|]). split.
      - intros j Hj1 Hj2. fu; auto. apply R; auto; nlia.
      - intros j Hj Hkj Hfi Hc. fu; [nlia|]. apply L; auto; nlia. }
    destruct (Nat.ltb_spec k (n c)) as [Hk|Hk].
    + destruct (is_field c k) eqn:Fi; [|injection S as <-; apply G2; congruence].
      destruct (called s k) eqn:Ca; [injection S as <-; apply G2; auto|].
      destruct (setter c k && negb (seth s k)); [injection S as <-; apply G|].
      destruct (initv s k) as [v|] eqn:In; [|injection S as <-; apply G].
      injection S as <-.
      assert (Gt : geth (if getter c k then set_geth k s else s) k = true \/ getter c k = false).
      { destruct (getter c k); [left; proj; apply fupd_eq|right; reflexivity]. }
      assert (Gm : forall f, geth s f = true -> geth (if getter c k then set_geth k s else s) f = true).
      { intros f Hf. destruct (getter c k); [proj; fu; auto|assumption]. }
      set (g := if getter c k then set_geth k s else s) in *.
      assert (Hg : g = mkSt (at_ s) (flag s) (eflag s) (eprep s) (called s) (initv s) (seth s) (geth g) (gone s) (mem s) (held s)
                            (marker s) (meth s) (disc s) (users s) (log s)).
      { unfold g. destruct (getter c k); [reflexivity|destruct s; reflexivity]. }
      rewrite Hg. generalize dependent (geth g). intros gh Gt Gm Hg. clear g Hg.
      constructor; proj; auto; gn; [intros _ [?|?]; discriminate|].
      unfold ipc, up, ready, late; proj. destruct U. repeat (split; [solve [auto]|]). split; [|split].
      * intros j Hj1 Hj2. rewrite !fupd_neq by nlia. apply R; auto.
      * intros j Hj Hkj Hfi Hc. fu; [congruence|]. apply L; auto.
      * rewrite !fupd_eq. do 6 (split; [first [assumption | reflexivity | congruence]|]). destruct Gt; congruence.
    + injection S as <-. constructor; proj; auto; gn; [intros _ [?|?]; discriminate|].
      unfold ipc; proj. do 4 (split; [assumption|]). intros j Hj. apply R; auto; nlia.
  - (* Deferred *)
    destruct I7 as (F & D & Me & [Mk U] & R & L & Hk & Fi & Ef & Ep & Ca & Iv & Gt).
    destruct (initv s k) as [v|] eqn:In; [|contradiction].
    unfold send in S. rewrite Ef in S. destruct (mem s) as [m|] eqn:M; [|contradiction]. destruct ok; injection S as <-.
    + assert (Lv : last k (log s) = Some v) by (rewrite <- I4; assumption).
      constructor; proj; auto; gn; try congruence.
      * intros f Hf Hfi Hc m' X. injection X as <-. destruct (Nat.eq_dec f k) as [->|Hn]; [rewrite fupd_eq; congruence|]. rewrite fupd_neq in Hc by assumption. rewrite fupd_neq by assumption. apply I3; auto.
      * intros f Hc. destruct (Nat.eq_dec f k) as [->|Hn]; [rewrite fupd_eq in Hc; discriminate|]. rewrite fupd_neq in Hc by assumption. rewrite fupd_neq by assumption. auto.
      * intros f Hfi Hc Hg. fu; auto.
      * intros _ [?|?]; discriminate.
      * unfold ipc, up, ready, late; proj. do 3 (split; [assumption|]). split; [split; congruence|]. split.
        -- intros j Hj1 Hj2. destruct (Nat.eq_dec j k) as [->|Hn].
           ++ rewrite fupd_eq. auto.
           ++ rewrite fupd_neq by assumption. apply R; auto; nlia.
        -- intros j Hj Hkj Hfi Hc. rewrite fupd_neq in Hc by nlia. apply L; auto; nlia.
    + unfold fail. constructor; proj; auto; gn; [rewrite M; auto|intros; apply I3; auto; congruence|intros _ [?|?]; discriminate|].
      unfold ipc; proj. do 3 (split; [assumption|]). intros j Hj Hfi Hc He. apply guards_in.
      destruct (Nat.lt_ge_cases j k) as [|Hkj]; [assumption|]. rewrite (L j Hj Hkj Hfi Hc) in He. discriminate.
  - (* Verify *)
    destruct I7 as (F & D & Me & [Mk U] & R). destruct ok; injection S as <-; constructor; proj; auto; gn;
      try (intros _ [?|?]; discriminate); unfold ipc, fail; proj.
    + do 3 (split; [assumption|]). split; [split; assumption|assumption].
    + do 3 (split; [assumption|]). intros. apply guards_in. assumption.
  - (* Announce *)
    destruct I7 as (F & D & Me & [Mk U] & R). rewrite D in S. destruct ok; injection S as <-; constructor; proj;
      cbn [on first_offer last]; auto; gn; try (intros _ [?|?]; discriminate); try discriminate; unfold ipc, fail; proj.
    + split; [reflexivity|]. split; [assumption|]. split; [split; assumption|assumption].
    + do 3 (split; [assumption|]). intros. apply guards_in. assumption.
  - (* Undo *)
    destruct I7 as (F & D & Mk & Q). destruct l as [|k l].
    + unfold bind_stop in S. rewrite Mk in S. destruct (users s) eqn:Us; injection S as <-; constructor; proj;
        cbn [on first_offer last]; auto; gn; try discriminate; try congruence; unfold ipc, late; proj.
      * rewrite F. split; [assumption|]. intros j Hj _ Hfi Hc. destruct (eflag s j) eqn:X; [destruct (Q j); auto|reflexivity].
      * rewrite F. split; [assumption|]. intros j Hj _ Hfi Hc. destruct (eflag s j) eqn:X; [destruct (Q j); auto|reflexivity].
    + injection S as <-. unfold stop_elem. destruct (eflag s k) eqn:Ek; constructor; proj; auto; gn;
        try (intros _ [?|?]; discriminate); unfold ipc; proj; do 3 (split; [assumption|]); intros j Hj Hfi Hc He.
      * fu; [discriminate|]. destruct (Q j); auto. congruence.
      * destruct (Q j); auto. congruence.
  - (* Withdraw *)
    destruct I7 as (F & D & Me & [Mk U] & R). injection S as <-. constructor; proj; auto; gn; [intros _ [?|?]; discriminate|].
    unfold ipc; proj. do 3 (split; [auto|]). intros; nlia.
  - (* StopElem *)
    destruct I7 as (F & D & Mk & Q). destruct (Nat.ltb_spec k (n c)) as [Hk|Hk]; injection S as <-.
    + unfold stop_elem. destruct (eflag s k) eqn:Ek; constructor; proj; auto; gn;
        try (intros _ [?|?]; discriminate); unfold ipc; proj; do 3 (split; [assumption|]); intros j Hj Hfi Hc He.
      * fu; [discriminate|]. assert (k <= j) by auto. nlia.
      * assert (k <= j) by auto. assert (j <> k) by congruence. nlia.
    + constructor; proj; auto; gn; [intros _ [?|?]; discriminate|]. unfold ipc, late; proj.
      do 3 (split; [assumption|]). intros j Hj _ Hfi Hc. destruct (eflag s j) eqn:X; [|reflexivity].
      assert (k <= j) by auto. nlia.
  - (* StopBind *)
    destruct I7 as (F & D & Mk & Q). unfold bind_stop in S. rewrite Mk in S.
    assert (FO : first_offer (log s) = false) by (apply on_first; congruence).
    destruct (users s) eqn:Us; injection S as <-; constructor; proj; cbn [on first_offer last]; auto; gn; try congruence; try discriminate;
      unfold ipc; proj; split; assumption.
Qed.

Definition orderly (s : st) (l : label) : bool := in_time s l && not_twice s l && kept s l.

Theorem iinv_reach c ls s : run c orderly ls s -> iinv c s.
Proof.
  induction 1 as [|ls s l s' R IH O S].
  - constructor; cbn; try discriminate; auto. unfold ipc, late; cbn. auto.
  - unfold orderly in O. apply andb_true_iff in O as [O O3]. apply andb_true_iff in O as [O1 O2].
    destruct l; try (refine (iinv_user c s _ s' IH _ O2 S); exact Logic.I); try (refine (iinv_call c s _ s' IH _ O1 S); exact Logic.I).
    exact (iinv_go _ _ _ _ IH O3 S).
Qed.

(** ** Theorems *)

Lemma step_log c s l s' : step c s l = Some s' ->
  log s' = log s \/
  exists e, log s' = e :: log s /\ (e = Offered -> at_ s = Announce) /\
            (e = OfferFailed FieldValueIsNotValid -> at_ s = Undo [] FieldValueIsNotValid).
Proof.
  intros S. destruct l; branch S; auto; right; eexists; (split; [reflexivity|]); split; intros X; congruence.
Qed.

(** C86: whenever OfferService has returned success, every field had been
    given a value before, and every field with a setter its handler.  In every
    environment. *)
Theorem C86_offered_has_value c ok ls s newer older : run c ok ls s -> log s = newer ++ Offered :: older ->
  forall f, f < n c -> is_field c f = true ->
    last f older <> None /\ (setter c f = true -> has_handler f older = true).
Proof.
  intros R. revert newer older. induction R as [|ls s l s' R IH O S]; intros newer older X f Hf Hfi.
  - destruct newer as [|? [|]]; discriminate X.
  - destruct (step_log c s l s' S) as [L|(e & L & A & _)]; rewrite L in X; [eapply IH; eauto|].
    destruct newer as [|e' newer]; cbn in X; injection X as -> X; [|eapply IH; eauto].
    subst older. pose proof (vinv_reach _ _ _ _ R) as V. pose proof (v_pc _ _ V) as P. rewrite (A eq_refl) in P.
    specialize (P f Hf Hfi). split; [apply (v_called _ _ V); assumption|].
    intros St. rewrite <- (v_reg _ _ V). apply (v_seth _ _ V); assumption.
Qed.

(** C86: OfferService answers kFieldValueIsNotValid only if some field had
    not been given a value.  In every environment. *)
Theorem C86_value_missing c ok ls s newer older : run c ok ls s ->
  log s = newer ++ OfferFailed FieldValueIsNotValid :: older ->
  exists f, f < n c /\ is_field c f = true /\ last f older = None.
Proof.
  intros R. revert newer older. induction R as [|ls s l s' R IH O S]; intros newer older X.
  - destruct newer as [|? [|]]; discriminate X.
  - destruct (step_log c s l s' S) as [L|(e & L & _ & A)]; rewrite L in X; [eapply IH; eauto|].
    destruct newer as [|e' newer]; cbn in X; injection X as -> X; [|eapply IH; eauto].
    subst older. pose proof (vinv_reach _ _ _ _ R) as V. pose proof (v_pc _ _ V) as P. rewrite (A eq_refl) in P.
    destruct P as (f & Hf & Hfi & Hc & Hi). exists f. do 2 (split; [assumption|]). apply (v_none _ _ V); assumption.
Qed.

(** C86: while the service is announced, a Get of a field with a getter is
    executed and answers the field's current value: that of the latest
    successful Update or accepted Set.  Partial: only as long as consumers'
    calls do not overtake StopOfferService, OfferService is not called while
    the service is offered, and at every OfferService after the first one some
    consumer still uses the service's memory; see the refuted theorems below
    for what happens otherwise. *)
Theorem C86_get_current_partial c ls s f : run c orderly ls s -> disc s = true ->
  f < n c -> is_field c f = true -> getter c f = true ->
  exists v s', last f (log s) = Some v /\ step c s (Get f) = Some s' /\ log s' = Got f (Some v) :: log s.
Proof.
  intros R D Hf Hfi Hg. pose proof (iinv_reach _ _ _ R) as [I1 I2 I3 I4 I5 I6 I8 I7].
  destruct (ipc_disc _ _ I7 D) as (F & Me & [Mk U] & Re & A). destruct (Re f Hf) as (R1 & R2 & R3). specialize (R3 Hfi).
  pose proof (vinv_reach _ _ _ _ R) as V. pose proof (v_called _ _ V f R3) as Lv.
  destruct (last f (log s)) as [v|] eqn:E; [|contradiction]. exists v.
  destruct (mem s) as [m|] eqn:M; [|contradiction]. exists (note (Got f (Some v)) s). split; [reflexivity|].
  cbn [step]. assert (Ru : running s = true) by (unfold running; destruct A as [-> | ->]; reflexivity).
  rewrite Ru, Me, Hfi, Hg, (I5 f Hfi R3 Hg), R2, M, (proj2 (Nat.ltb_lt f (n c)) Hf). cbn.
  rewrite (I3 f Hf Hfi R3 m eq_refl), E. split; reflexivity.
Qed.

(** C87: in the same environment the provider's process neither fails an
    assertion nor runs into undefined behaviour. *)
Theorem C87_keeps_running_partial c ls s : run c orderly ls s -> running s = true.
Proof.
  intros R. pose proof (i_pc _ _ (iinv_reach _ _ _ R)) as P. unfold ipc in P. unfold running.
  destruct (at_ s); try reflexivity; contradiction.
Qed.

(** C88: between the provider's calls, the service is offered entirely or not
    at all, and the result of the latest call says which: after a successful
    OfferService discovery announces it, method calls are accepted and every
    event and field accepts samples; after a failed one, and after
    StopOfferService, none of this holds.  Partial: OfferService must not be
    called while the service is offered, and a slot must be free for each
    field's first value. *)
Theorem C88_all_or_nothing_partial c ls s : run c (fun s l => not_twice s l && room s l) ls s -> at_ s = Idle ->
  if on (log s) then disc s = true /\ meth s = true /\ forall k, k < n c -> eflag s k = true
  else disc s = false /\ meth s = false /\ forall k, k < n c -> eflag s k = false.
Proof.
  intros R A. destruct (jpc_reach _ _ _ R) as [F J]. unfold jpc in J. rewrite A in J. rewrite <- F.
  destruct (flag s); exact J.
Qed.

(** ** The first OfferService succeeds exactly if every field has a value and
    every field with a setter a handler *)

Definition fit (c : cfg) (s : st) (f : nat) : Prop :=
  is_field c f = true -> called s f = true \/ (initv s f <> None /\ (setter c f = true -> seth s f = true)).

Lemma repeat_cons m s c s1 s2 : step c s (Go true) = Some s1 -> runs c s1 (repeat (Go true) m) = Some s2 ->
  runs c s (repeat (Go true) (S m)) = Some s2.
Proof. intros X Y. cbn [repeat runs]. rewrite X. exact Y. Qed.

Lemma kept_go s : at_ s <> Preparing -> kept s (Go true) = true.
Proof. unfold kept. destruct (at_ s); congruence. Qed.

Lemma undo_ends c l : forall s e, iinv c s -> at_ s = Undo l e ->
  exists m s', runs c s (repeat (Go true) m) = Some s' /\ at_ s' = Idle /\ log s' = OfferFailed e :: log s.
Proof.
  induction l as [|k l IH]; intros s e I A.
  - pose proof (i_pc _ _ I) as P. unfold ipc in P. rewrite A in P. destruct P as (_ & _ & Mk & _).
    destruct (step c s (Go true)) as [s'|] eqn:S.
    + exists 1, s'. split; [cbn [repeat runs]; rewrite S; reflexivity|].
      cbn [step] in S. unfold step_go, bind_stop in S. rewrite A, Mk in S. destruct (users s); injection S as <-; split; reflexivity.
    + exfalso. cbn [step] in S. unfold step_go, bind_stop in S. rewrite A, Mk in S. destruct (users s); discriminate.
  - assert (S : step c s (Go true) = Some (go (Undo l e) (stop_elem k s))) by (cbn [step]; unfold step_go; rewrite A; reflexivity).
    pose proof (iinv_go _ _ _ _ I (kept_go s ltac:(congruence)) S) as I'.
    destruct (IH _ e I' eq_refl) as (m & s' & X & Y & Z). exists (Datatypes.S m), s'.
    split; [eapply repeat_cons; eauto|]. split; [assumption|]. rewrite Z. unfold stop_elem. destruct (eflag s k); reflexivity.
Qed.

Lemma elems_end c d : forall s k, iinv c s -> at_ s = Elem k -> n c - k = d -> k <= n c ->
  exists m s', runs c s (repeat (Go true) m) = Some s' /\ at_ s' = Idle /\
    (log s' = Offered :: log s /\ (forall f, k <= f < n c -> fit c s f) \/
     (exists e, log s' = OfferFailed e :: log s) /\ exists f, k <= f < n c /\ ~ fit c s f).
Proof.
  induction d as [|d IH]; intros s k I A D K; pose proof (i_pc _ _ I) as P; unfold ipc in P; rewrite A in P;
    destruct P as (F & Di & Me & U & Re & La).
  - (* all elements are prepared *)
    assert (k = n c) as -> by lia.
    assert (S : step c s (Go true) = Some (go Verify s)).
    { cbn [step]. unfold step_go. rewrite A, Nat.ltb_irrefl. reflexivity. }
    exists 3, (note Offered (go Idle (set_flag true (set_disc true (go Announce (go Verify s)))))). split; [|split; [reflexivity|]].
    + cbn [repeat runs]. rewrite S. cbn. rewrite Di. reflexivity.
    + left. split; [reflexivity|]. intros; lia.
  - assert (Hk : k < n c) by lia. pose proof (proj2 (Nat.ltb_lt _ _) Hk) as Hb.
    assert (NG : gone s k = false).
    { destruct (gone s k) eqn:X; [apply (i_gone _ _ I) in X; destruct U; contradiction|reflexivity]. }
    destruct (step c s (Go true)) as [s1|] eqn:S; [|exfalso; cbn [step] in S; unfold step_go in S; rewrite A, Hb in S;
      repeat match type of S with context [match ?x with _ => _ end] => destruct x; try discriminate S end].
    pose proof (iinv_go _ _ _ _ I (kept_go s ltac:(congruence)) S) as I1.
    pose proof S as S0. cbn [step] in S. unfold step_go in S. rewrite A, Hb in S.
    (* the cases in which element k is prepared at once *)
    assert (Simple : s1 = go (Elem (Datatypes.S k)) (set_elem k true s) -> fit c s k ->
      exists m s', runs c s (repeat (Go true) m) = Some s' /\ at_ s' = Idle /\
        (log s' = Offered :: log s /\ (forall f, k <= f < n c -> fit c s f) \/
         (exists e, log s' = OfferFailed e :: log s) /\ exists f, k <= f < n c /\ ~ fit c s f)).
    { intros -> Fk. destruct (IH _ (Datatypes.S k) I1 eq_refl ltac:(lia) ltac:(lia)) as (m & s' & X & Y & Z).
      exists (Datatypes.S m), s'. split; [eapply repeat_cons; eauto|]. split; [assumption|]. destruct Z as [[Z1 Z2]|[Z1 (f & Z2 & Z3)]].
      - left. split; [exact Z1|]. intros f Hf. destruct (Nat.eq_dec f k) as [->|Hn]; [assumption|]. apply (Z2 f). lia.
      - right. split; [exact Z1|]. exists f. split; [lia|exact Z3]. }
    assert (Fails : forall e, s1 = fail c k e s -> ~ fit c s k ->
      exists m s', runs c s (repeat (Go true) m) = Some s' /\ at_ s' = Idle /\
        (log s' = Offered :: log s /\ (forall f, k <= f < n c -> fit c s f) \/
         (exists e, log s' = OfferFailed e :: log s) /\ exists f, k <= f < n c /\ ~ fit c s f)).
    { intros e -> Fk. destruct (undo_ends c _ _ e I1 eq_refl) as (m & s' & X & Y & Z).
      exists (Datatypes.S m), s'. split; [eapply repeat_cons; eauto|]. split; [assumption|]. right.
      split; [exists e; exact Z|]. exists k. split; [lia|assumption]. }
    destruct (is_field c k) eqn:Fi; [|injection S as <-; apply Simple; [reflexivity|]; intros X; congruence].
    destruct (called s k) eqn:Ca.
    { rewrite NG, andb_false_r in S. injection S as <-. apply Simple; [reflexivity|]. intros _. left. assumption. }
    destruct (setter c k && negb (seth s k)) eqn:St.
    { injection S as <-. apply (Fails BindingFailure); [reflexivity|]. intros X. destruct (X Fi) as [|[_ X2]]; [congruence|].
      apply andb_true_iff in St as [St1 St2]. rewrite (X2 St1) in St2. discriminate. }
    destruct (initv s k) as [v|] eqn:Iv.
    2:{ injection S as <-. apply (Fails FieldValueIsNotValid); [reflexivity|]. intros X. destruct (X Fi) as [|[X1 _]]; congruence. }
    rewrite NG, andb_false_r in S.
    (* the first value is sent *)
    assert (A1 : at_ s1 = Deferred k) by (injection S as <-; reflexivity).
    assert (Hs1 : called s1 = called s /\ initv s1 = initv s /\ seth s1 = seth s /\ log s1 = log s /\ eflag s1 k = true /\ mem s1 = mem s).
    { injection S as <-. destruct (getter c k); repeat split; proj; apply fupd_eq. }
    destruct Hs1 as (C1 & V1 & H1 & L1 & E1 & M1). destruct (mem s) as [m0|] eqn:M; [|destruct U; contradiction].
    assert (S2 : step c s1 (Go true) = Some (go (Elem (Datatypes.S k)) (set_called k
                   (set_shm (gone s1) (Some (fupd m0 k (Some v))) (held s1) (marker s1) s1)))).
    { cbn [step]. unfold step_go. rewrite A1, V1, Iv. unfold send. rewrite E1, M1. reflexivity. }
    pose proof (iinv_go _ _ _ _ I1 (kept_go s1 ltac:(congruence)) S2) as I2.
    assert (Fk : fit c s k).
    { intros _. right. split; [congruence|]. intros X. rewrite X in St. cbn in St. apply negb_false_iff in St. assumption. }
    destruct (IH _ (Datatypes.S k) I2 eq_refl ltac:(lia) ltac:(lia)) as (m & s' & X & Y & Z).
    exists (Datatypes.S (Datatypes.S m)), s'. split; [eapply repeat_cons; [exact S0|]; eapply repeat_cons; eauto|]. split; [assumption|].
    assert (Same : forall f, Datatypes.S k <= f -> fit c (go (Elem (Datatypes.S k)) (set_called k
                   (set_shm (gone s1) (Some (fupd m0 k (Some v))) (held s1) (marker s1) s1))) f <-> fit c s f).
    { intros f Hf. unfold fit. proj. rewrite !fupd_neq by lia. rewrite C1, V1, H1. reflexivity. }
    proj. rewrite L1 in Z. destruct Z as [[Z1 Z2]|[Z1 (f & Z2 & Z3)]].
    + left. split; [assumption|]. intros f Hf. destruct (Nat.eq_dec f k) as [->|Hn]; [assumption|]. apply Same; [lia|]. apply Z2. lia.
    + right. split; [assumption|]. exists f. split; [lia|]. intros Q. apply Z3. apply Same; [lia|assumption].
Qed.

(** C86: with the operating system's help, the first OfferService of a process
    returns, and returns success exactly if every field has been given a value
    and every field with a setter its handler. *)
Theorem C86_first_offer_exact c ls s : run c orderly ls s -> at_ s = Idle -> first_offer (log s) = true ->
  exists m s', runs c s (Offer :: repeat (Go true) m) = Some s' /\ at_ s' = Idle /\
    ((forall f, f < n c -> is_field c f = true ->
        last f (log s) <> None /\ (setter c f = true -> has_handler f (log s) = true)) ->
     log s' = Offered :: log s) /\
    (~ (forall f, f < n c -> is_field c f = true ->
        last f (log s) <> None /\ (setter c f = true -> has_handler f (log s) = true)) ->
     exists e, log s' = OfferFailed e :: log s).
Proof.
  intros R A FO. pose proof (iinv_reach _ _ _ R) as I. destruct (i_first _ _ I FO (or_introl A)) as (Hh & Hc & Hg).
  pose proof (vinv_reach _ _ _ _ R) as V.
  assert (NT : not_twice s Offer = true).
  { unfold not_twice. destruct (on (log s)) eqn:X; [rewrite (on_first _ X) in FO; discriminate|reflexivity]. }
  assert (S1 : step c s Offer = Some (go Preparing s)) by (cbn; unfold idle; rewrite A; reflexivity).
  assert (I1 : iinv c (go Preparing s)) by (refine (iinv_user c s Offer _ I _ NT S1); exact Logic.I).
  assert (S2 : exists s2, step c (go Preparing s) (Go true) = Some s2 /\ at_ s2 = Elem 0 /\ log s2 = log s /\
                          called s2 = called s /\ initv s2 = initv s /\ seth s2 = seth s).
  { cbn [step step_go go at_]. unfold bind_prepare. proj. rewrite Hh. destruct (users s); eexists; (split; [reflexivity|]); repeat split. }
  destruct S2 as (s2 & S2 & A2 & L2 & C2 & V2 & H2).
  assert (I2 : iinv c s2).
  { refine (iinv_go _ _ _ _ I1 _ S2). unfold kept. cbn. rewrite FO. reflexivity. }
  destruct (elems_end c (n c) s2 0 I2 A2 ltac:(lia) ltac:(lia)) as (m & s' & X & Y & Z). exists (S m), s'.
  split; [cbn [repeat runs]; rewrite S1, S2; exact X|]. split; [assumption|]. rewrite L2 in Z.
  assert (Fit : forall f, fit c s2 f <-> (is_field c f = true -> last f (log s) <> None /\ (setter c f = true -> has_handler f (log s) = true))).
  { intros f. unfold fit. rewrite C2, V2, H2, (Hc f), (i_init _ _ I f (Hc f)), (v_reg _ _ V f). split; intros Q Fi; specialize (Q Fi).
    - destruct Q as [|Q]; [discriminate|exact Q].
    - right. exact Q. }
  destruct Z as [[Z1 Z2]|[[e Z1] (f & Hf & Z2)]].
  - split; [auto|]. intros Q. exfalso. apply Q. intros f Hf. apply (Fit f). apply Z2. lia.
  - split; [|exists e; assumption]. intros Q. exfalso. apply Z2, (Fit f). apply Q. lia.
Qed.

(** ** Refuted claims and concrete cases *)

Definition g (k : nat) : list label := repeat (Go true) k.
Definition one : cfg := mkCfg 1 0 (fun _ => true) (fun _ => false).       (* a field with a getter *)
Definition two : cfg := mkCfg 2 0 (fun _ => true) (fun _ => false).       (* two such fields *)
Definition full : cfg := mkCfg 3 1 (fun _ => true) (fun f => f =? 2).     (* an event, two fields, one with a setter *)

Lemma ex_run (c : cfg) (ok : st -> label -> bool) (ls : list label) (P : st -> Prop) :
  allowed c ok init ls = true -> match runs c init ls with Some s => P s | None => False end ->
  exists s, run c ok ls s /\ P s.
Proof.
  intros A H. destruct (runs c init ls) as [s|] eqn:X; [|contradiction]. exists s. split; [|assumption].
  apply runs_reach; assumption.
Qed.

(** C86 refuted: a field that was given a value and whose provider never said
    otherwise answers Get with an error after the service has been stopped and
    offered again, although OfferService succeeded; the provider's attempt to
    set the value in between is refused. *)
Theorem C86_offered_again_refuted :
  exists ls s, run one (fun s l => in_time s l && not_twice s l && room s l) ls s /\
    on (log s) = true /\ last 0 (log s) = Some 5 /\ In (UpdateFailed 0 6) (log s) /\ exists h, log s = Got 0 None :: h.
Proof.
  exists ([Update 0 5 true; Offer] ++ g 6 ++ [Stop] ++ g 4 ++ [Update 0 6 true; Offer] ++ g 5 ++ [Get 0]).
  apply (ex_run one _ _ (fun s => on (log s) = true /\ last 0 (log s) = Some 5 /\ In (UpdateFailed 0 6) (log s) /\
                                   exists h, log s = Got 0 None :: h)); vm_compute; [reflexivity|].
  do 2 (split; [reflexivity|]). split; [tauto|]. eexists; reflexivity.
Qed.

(** C86 refuted: OfferService fails because another field has no value; the
    provider sets that one and calls OfferService again, which succeeds; the
    first field has lost its value. *)
Theorem C86_retry_loses_value_refuted :
  exists ls s, run two (fun s l => in_time s l && not_twice s l && room s l) ls s /\
    log s = [Got 0 None; Offered; Updated 1 7; OfferFailed FieldValueIsNotValid; Updated 0 5; Started].
Proof.
  exists ([Update 0 5 true; Offer] ++ g 6 ++ [Update 1 7 true; Offer] ++ g 7 ++ [Get 0]).
  apply (ex_run two _ _ (fun s => log s = [Got 0 None; Offered; Updated 1 7; OfferFailed FieldValueIsNotValid; Updated 0 5; Started]));
    vm_compute; reflexivity.
Qed.

(** C87 refuted: a Get that is executed while StopOfferService runs terminates
    the provider. *)
Theorem C87_get_while_stopping_refuted :
  exists ls s, run one (fun s l => not_twice s l && room s l && kept s l) ls s /\ at_ s = Terminated.
Proof.
  exists ([Update 0 5 true; Offer] ++ g 6 ++ [Stop] ++ g 2 ++ [Get 0]).
  apply (ex_run one _ _ (fun s => at_ s = Terminated)); vm_compute; reflexivity.
Qed.

(** C87 refuted: OfferService called a second time while the service is
    offered terminates the provider if no consumer uses the service. *)
Theorem C87_offer_twice_refuted :
  exists ls s, run one (fun s l => in_time s l && room s l) ls s /\ at_ s = Terminated.
Proof.
  exists ([Update 0 5 true; Offer] ++ g 6 ++ [Offer] ++ g 1).
  apply (ex_run one _ _ (fun s => at_ s = Terminated)); vm_compute; reflexivity.
Qed.

(** C87 refuted: stopping while a consumer uses the service and offering again
    after it has gone terminates the provider. *)
Theorem C87_offer_after_consumer_left_refuted :
  exists ls s, run one (fun s l => in_time s l && not_twice s l && room s l) ls s /\ at_ s = Terminated.
Proof.
  exists ([Update 0 5 true; Offer] ++ g 6 ++ [Attach; Stop] ++ g 4 ++ [Detach; Offer] ++ g 1).
  apply (ex_run one _ _ (fun s => at_ s = Terminated)); vm_compute; reflexivity.
Qed.

(** C87 refuted: OfferService called twice, the consumer leaving meanwhile:
    StopOfferService then uses the marker file that is no longer there. *)
Theorem C87_stop_after_offer_twice_refuted :
  exists ls s, run one (fun s l => in_time s l && room s l && kept s l) ls s /\ at_ s = Undefined.
Proof.
  exists ([Update 0 5 true; Offer] ++ g 6 ++ [Attach; Offer] ++ g 6 ++ [Detach] ++ g 1 ++ [Stop] ++ g 4).
  apply (ex_run one _ _ (fun s => at_ s = Undefined)); vm_compute; reflexivity.
Qed.

(** C87 refuted: no slot is free for a field's first value, so OfferService
    fails; calling it again destroys a guard that refers to removed memory. *)
Theorem C87_retry_undefined_refuted :
  exists ls s, run one (fun s l => in_time s l && not_twice s l) ls s /\ at_ s = Undefined.
Proof.
  exists ([Update 0 5 true; Offer] ++ g 2 ++ [Go false] ++ g 1 ++ [Offer] ++ g 2).
  apply (ex_run one _ _ (fun s => at_ s = Undefined)); vm_compute; reflexivity.
Qed.

(** C88 refuted: after that failed OfferService the field's event is still
    prepared. *)
Theorem C88_failed_offer_leaves_field_refuted :
  exists ls s, run one (fun s l => in_time s l && not_twice s l && kept s l) ls s /\
    at_ s = Idle /\ log s = [OfferFailed BindingFailure; Updated 0 5; Started] /\ eflag s 0 = true.
Proof.
  exists ([Update 0 5 true; Offer] ++ g 2 ++ [Go false] ++ g 1).
  apply (ex_run one _ _ (fun s => at_ s = Idle /\ log s = [OfferFailed BindingFailure; Updated 0 5; Started] /\ eflag s 0 = true));
    vm_compute; auto.
Qed.

(** C88 refuted: OfferService called a second time while a consumer uses the
    service fails and takes the service down: discovery still announces it, but
    Update is refused and no call of a consumer is executed. *)
Theorem C88_offer_twice_refuted :
  exists ls s, run one (fun s l => in_time s l && room s l && kept s l) ls s /\
    at_ s = Idle /\ log s = [UpdateFailed 0 6; OfferFailed BindingFailure; Offered; Updated 0 5; Started] /\
    disc s = true /\ meth s = false /\ eflag s 0 = false.
Proof.
  exists ([Update 0 5 true; Offer] ++ g 6 ++ [Attach; Offer] ++ g 7 ++ [Update 0 6 true]).
  apply (ex_run one _ _ (fun s => at_ s = Idle /\
    log s = [UpdateFailed 0 6; OfferFailed BindingFailure; Offered; Updated 0 5; Started] /\
    disc s = true /\ meth s = false /\ eflag s 0 = false)); vm_compute; auto 6.
Qed.

(** The hypotheses of C86_get_current_partial and C87_keeps_running_partial
    are met by a run with a Set, a stop, and a second offer during which a
    consumer stays attached. *)
Example C86_get_met :
  exists ls s, run full orderly ls s /\ disc s = true /\
    log s = [Got 2 (Some 9); Offered; Stopped; Got 2 (Some 9); SetDone 2 9; Offered; Updated 2 7; Registered 2; Updated 1 5; Started].
Proof.
  exists ([Update 1 5 true; RegisterSet 2; Update 2 7 true; Offer] ++ g 9 ++ [Attach; Set_ 2 9 true; Get 2; Stop] ++ g 6 ++
          [Offer] ++ g 7 ++ [Get 2]).
  apply (ex_run full _ _ (fun s => disc s = true /\
    log s = [Got 2 (Some 9); Offered; Stopped; Got 2 (Some 9); SetDone 2 9; Offered; Updated 2 7; Registered 2; Updated 1 5; Started]));
    vm_compute; auto.
Qed.

Example C86_missing_met :
  exists ls s, run full orderly ls s /\ log s = [OfferFailed FieldValueIsNotValid; Registered 2; Updated 1 5; Started].
Proof.
  exists ([Update 1 5 true; RegisterSet 2; Offer] ++ g 8).
  apply (ex_run full _ _ (fun s => log s = [OfferFailed FieldValueIsNotValid; Registered 2; Updated 1 5; Started])); vm_compute; auto.
Qed.

Example C88_met :
  exists ls s, run full (fun s l => not_twice s l && room s l) ls s /\ at_ s = Idle /\ on (log s) = false /\
    log s = [OfferFailed BindingFailure; Updated 2 7; Updated 1 5; Started].
Proof.
  exists ([Update 1 5 true; Update 2 7 true; Offer] ++ g 8).
  apply (ex_run full _ _ (fun s => at_ s = Idle /\ on (log s) = false /\
    log s = [OfferFailed BindingFailure; Updated 2 7; Updated 1 5; Started])); vm_compute; auto.
Qed.

Print Assumptions C86_offered_has_value.
Print Assumptions C86_value_missing.
Print Assumptions C86_get_current_partial.
Print Assumptions C86_first_offer_exact.
Print Assumptions C87_keeps_running_partial.
Print Assumptions C88_all_or_nothing_partial.
