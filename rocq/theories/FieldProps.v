(** C110: setting, getting and updating a field from any threads. *)
From Verif Require Import Base FieldModel FieldSpec FieldProof FieldAns FieldGet FieldLin.
Open Scope nat_scope.

(** ** what holds in every run *)

(** Whatever Sets, Gets, Updates and subscribers do at the same time: a Set that
    succeeds answers the requested value as the user's handler left it, and this
    value was sent during the call; a Set that fails has sent nothing.  Other
    consumers may write into the storage of their own calls ([bad]).
    Partial: the storage of this consumer's call is not written by it meanwhile. *)
Theorem C110_set_answer_partial : forall p v0 bad ls s l1 a r l2 d,
  1 <= p_slots p -> Forall (fair bad) ls -> run p ls (start v0) = Some s ->
  log s = l1 ++ ERet a r :: l2 -> asked a l2 = Some (OSet d) -> bad a = false ->
  match r with
  | COk v => v = p_fix p d /\ In (ESent (Some a) v) (since a l2)
  | CErr _ => forall v, ~ In (ESent (Some a) v) (since a l2)
  end.
Proof.
  intros p v0 bad ls s l1 a r l2 d Hp F H E Q B.
  pose proof (run_a p bad ls _ _ (start_a p bad v0 Hp) F H) as A. pose proof (a_log _ _ _ A) as L. rewrite E in L.
  pose proof (answers_split _ _ _ _ _ _ L B) as X. unfold answer_ok in X. rewrite Q in X. exact X.
Qed.

(** The same for the provider's Update. *)
Theorem C110_update_answer_partial : forall p v0 bad ls s l1 a r l2 w,
  1 <= p_slots p -> Forall (fair bad) ls -> run p ls (start v0) = Some s ->
  log s = l1 ++ ERet a r :: l2 -> asked a l2 = Some (OUpd w) -> bad a = false ->
  match r with
  | COk v => v = w /\ In (ESent (Some a) v) (since a l2)
  | CErr _ => forall v, ~ In (ESent (Some a) v) (since a l2)
  end.
Proof.
  intros p v0 bad ls s l1 a r l2 w Hp F H E Q B.
  pose proof (run_a p bad ls _ _ (start_a p bad v0 Hp) F H) as A. pose proof (a_log _ _ _ A) as L. rewrite E in L.
  pose proof (answers_split _ _ _ _ _ _ L B) as X. unfold answer_ok in X. rewrite Q in X. exact X.
Qed.

(** A Get never answers anything but the initial value, a value given to Update, or
    what the handler made of a value given to Set.
    Partial: no consumer writes into the storage of its call meanwhile. *)
Theorem C110_get_admitted_partial : forall p v0 ls s l1 a v l2,
  1 <= p_slots p -> Forall (fair nobody) ls -> run p ls (start v0) = Some s ->
  log s = l1 ++ ERet a (COk v) :: l2 -> asked a l2 = Some OGet -> admitted p v0 l2 v.
Proof.
  intros p v0 ls s l1 a v l2 Hp F H E Q.
  destruct (run_m p v0 ls _ _ (start_a p nobody v0 Hp) (start_m p v0) eq_refl F H) as [M _].
  exact (m_log _ _ _ M _ _ _ _ E Q).
Qed.

(** Sets, Gets and Updates do not terminate the provider.  Partial: as before. *)
Theorem C110_no_termination_partial : forall p v0 ls s,
  1 <= p_slots p -> Forall (fair nobody) ls -> run p ls (start v0) = Some s -> dead s = false.
Proof.
  intros p v0 ls s Hp F H.
  exact (proj2 (run_m p v0 ls _ _ (start_a p nobody v0 Hp) (start_m p v0) eq_refl F H)).
Qed.

(** The user's set handler runs at most once at a time, and Gets together reference at
    most one sample at a time, whatever consumers do. *)
Theorem C110_one_at_a_time : forall p v0 ls s,
  1 <= p_slots p -> run p ls (start v0) = Some s ->
  (forall a b, at_ s a = PSetUser -> at_ s b = PSetUser -> a = b) /\
  (forall i j, sget (slots s i) = true -> sget (slots s j) = true -> i = j).
Proof.
  intros p v0 ls s Hp H. pose proof (run_k p ls _ _ (start_k p v0 Hp) H) as K. split.
  - intros a b Ha Hb. assert (mset s = Some a) by (apply (k_set _ _ K); rewrite Ha; reflexivity).
    assert (mset s = Some b) by (apply (k_set _ _ K); rewrite Hb; reflexivity). congruence.
  - intros i j Hi Hj. destruct (k_sgot _ _ K i Hi) as [a Ha]. destruct (k_sgot _ _ K j Hj) as [b Hb].
    assert (mget s = Some a) by (apply (k_get _ _ K); destruct (at_ s a); try discriminate; reflexivity).
    assert (mget s = Some b) by (apply (k_get _ _ K); destruct (at_ s b); try discriminate; reflexivity). congruence.
Qed.

(** A slot is written by one sender at a time, and never while anyone references it. *)
Theorem C110_slots_exclusive : forall p v0 ls s,
  1 <= p_slots p -> run p ls (start v0) = Some s ->
  forall a i, slot_of (at_ s a) = Some i ->
  refs (slots s i) = 0 /\ forall b, slot_of (at_ s b) = Some i -> b = a.
Proof.
  intros p v0 ls s Hp H a i S. pose proof (run_k p ls _ _ (start_k p v0 Hp) H) as K. split.
  - destruct (k_own _ _ K a i S) as [_ W]. destruct (k_ref _ _ K i) as [[t T]|[T1 T2]]; [congruence|].
    unfold refs. rewrite T1, T2. reflexivity.
  - intros b Hb. exact (k_uni _ _ K b a i Hb S).
Qed.

(** ** with values sent in order *)

(** If values are sent one after the other, none begins to be sent while a Get looks
    for the latest, and subscribers leave three slots free, a successful Get answers a
    value the field had during the call.
    Partial: see the conditions; all three are needed, as shown below. *)
Theorem C110_get_current_partial : forall p v0 bad ls s l1 a v l2,
  1 <= p_slots p -> always p (fun s l => fair bad l /\ one_sender s l /\ calm s l /\ room p s l) ls (start v0) ->
  run p ls (start v0) = Some s ->
  log s = l1 ++ ERet a (COk v) :: l2 -> asked a l2 = Some OGet -> bad a = false -> In v (values_during a l2).
Proof.
  intros p v0 bad ls s l1 a v l2 Hp G H E Q B.
  pose proof (run_j p bad ls _ _ (start_j p bad v0 Hp) G H) as J. exact (i_log _ _ _ J _ _ _ _ E B Q).
Qed.

(** In particular, if nothing is sent during the Get, it answers the latest value sent before. *)
Theorem C110_get_latest_partial : forall p v0 bad ls s l1 a v l2,
  1 <= p_slots p -> always p (fun s l => fair bad l /\ one_sender s l /\ calm s l /\ room p s l) ls (start v0) ->
  run p ls (start v0) = Some s ->
  log s = l1 ++ ERet a (COk v) :: l2 -> asked a l2 = Some OGet -> bad a = false ->
  (forall b w, ~ In (ESent b w) (since a l2)) -> v = current (before a l2).
Proof.
  intros p v0 bad ls s l1 a v l2 Hp G H E Q B N.
  pose proof (C110_get_current_partial p v0 bad ls s l1 a v l2 Hp G H E Q B) as X. unfold values_during in X.
  replace (sent (since a l2)) with (@nil Z) in X; [destruct X as [X|[]]; congruence|].
  symmetry. clear -N. induction (since a l2) as [|e l IH]; [reflexivity|].
  destruct e; cbn; [apply IH| |]; try (intros b w X; apply (N b w); now right).
  - apply IH. intros b w X. apply (N b w). now right.
  - destruct (N a0 v). now left.
Qed.

(** Under the same conditions Set and Update never fail. *)
Theorem C110_no_failure_partial : forall p v0 bad ls s l1 a e l2,
  1 <= p_slots p -> always p (fun s l => fair bad l /\ one_sender s l /\ calm s l /\ room p s l) ls (start v0) ->
  run p ls (start v0) = Some s ->
  log s = l1 ++ ERet a (CErr e) :: l2 -> bad a = false -> asked a l2 = Some OGet.
Proof.
  intros p v0 bad ls s l1 a e l2 Hp G H E B.
  pose proof (run_n p bad ls _ _ (start_n p bad v0 Hp) G H) as J. exact (n_log _ _ _ J _ _ _ _ E B).
Qed.

(** ** concrete runs *)
Definition mv (a n : nat) : list label := repeat (LMove a) n.
Definition clamp (v : Z) : Z := if (100 <? v)%Z then 100%Z else v.
Definition par_ (n : nat) : par := mkPar n clamp.
Definition set_ (a : nat) (d : Z) : list label := LCall a (OSet d) :: mv a 10.
Definition upd_ (a : nat) (d : Z) : list label := LCall a (OUpd d) :: mv a 6.
Definition get_ (n a : nat) : list label := LCall a OGet :: mv a (n + 6).

(** conditions about all agents, checked for the agents below [m] *)
Definition idle (m : nat) (s : st) : Prop := forall b, m <= b -> at_ s b = PIdle.
Definition below (m : nat) (l : label) : bool := match actor l with Some a => Nat.ltb a m | None => true end.
Definition cond (m : nat) (f : st -> bool) (s : st) (l : label) : bool :=
  match l with LMove a => negb (begins (at_ s a)) || f s | _ => true end.
Definition c_one m := cond m (fun s => forallb (fun b => negb (sending (at_ s b))) (seq 0 m)).
Definition c_calm m := cond m (fun s => forallb (fun b => negb (searching (at_ s b))) (seq 0 m)).
Definition c_room p m := cond m (fun s => Nat.leb (held p s + 3) (p_slots p)).

Fixpoint check (p : par) (m : nat) (q : st -> label -> bool) (ls : list label) (s : st) : bool :=
  match ls with
  | [] => true
  | l :: r => below m l && q s l && match step p l s with Some s1 => check p m q r s1 | None => true end
  end.

Lemma idle_step p m l s s' : idle m s -> below m l = true -> step p l s = Some s' -> idle m s'.
Proof.
  intros I0 B H b Hb. destruct (actor_dec l b) as [A|A].
  - unfold below in B. rewrite A in B. apply Nat.ltb_lt in B. lia.
  - rewrite (f_at _ _ _ (step_frame _ _ _ _ _ A H)). auto.
Qed.

Lemma check_always p m q (P : st -> label -> Prop) : (forall s l, idle m s -> q s l = true -> P s l) ->
  forall ls s, idle m s -> check p m q ls s = true -> always p P ls s.
Proof.
  intros HP. induction ls as [|l r IH]; cbn [check always]; intros s I0 H; [exact I|].
  apply andb_prop in H. destruct H as [H H3]. apply andb_prop in H. destruct H as [H1 H2]. split; [auto|].
  destruct (step p l s) eqn:E; [|exact I]. apply IH; [eapply idle_step; eauto|exact H3].
Qed.

Lemma c_one_ok m s l : idle m s -> c_one m s l = true -> one_sender s l.
Proof.
  intros I0 H a -> B b. cbn in H. rewrite B in H. cbn in H. rewrite forallb_forall in H.
  destruct (Nat.ltb_spec b m) as [L|L]; [|rewrite I0 by exact L; reflexivity].
  specialize (H b ltac:(apply in_seq; lia)). now destruct (sending (at_ s b)).
Qed.
Lemma c_calm_ok m s l : idle m s -> c_calm m s l = true -> calm s l.
Proof.
  intros I0 H a -> B b. cbn in H. rewrite B in H. cbn in H. rewrite forallb_forall in H.
  destruct (Nat.ltb_spec b m) as [L|L]; [|rewrite I0 by exact L; reflexivity].
  specialize (H b ltac:(apply in_seq; lia)). now destruct (searching (at_ s b)).
Qed.
Lemma c_room_ok p m s l : c_room p m s l = true -> room p s l.
Proof. intros H a -> B. cbn in H. rewrite B in H. cbn in H. now apply Nat.leb_le. Qed.

Definition log_of (o : option st) : list ev := match o with Some s => log s | None => [] end.
Lemma run_with p ls s0 l : log_of (run p ls s0) = l -> l <> [] -> exists s, run p ls s0 = Some s /\ log s = l.
Proof. destruct (run p ls s0) as [s|]; cbn; intros H N; [now exists s|congruence]. Qed.

Ltac run_lit p ls s0 s R L :=
  let l := eval vm_compute in (log_of (run p ls s0)) in
  assert (L : log_of (run p ls s0) = l) by (vm_compute; reflexivity);
  destruct (run_with p ls s0 l L ltac:(discriminate)) as [s [R ?]]; clear L; rename H into L.

Definition b_fair (bad : nat -> bool) (l : label) : bool :=
  match l with LTamper a _ | LTamperArg a _ => bad a | _ => true end.
Lemma b_fair1 bad l : b_fair bad l = true -> fair bad l.
Proof. destruct l; cbn; auto. Qed.
Lemma b_fair_ok bad ls : forallb (b_fair bad) ls = true -> Forall (fair bad) ls.
Proof.
  intros H. apply Forall_forall. intros l Hl. rewrite forallb_forall in H. now apply b_fair1, H.
Qed.

(** Sets, an Update and Gets one after the other, while a subscriber holds a sample and takes others; the
    handler limits values to 100 *)
Definition plain : list label :=
  LRef 0 :: set_ 1 5 ++ get_ 5 2 ++ LRef 1 :: set_ 2 500 ++ LUnref 1 :: upd_ 3 7 ++ get_ 5 1 ++
  (* a Get that overlaps the end of an Update *)
  LCall 3 (OUpd 8) :: mv 3 3 ++ LCall 1 OGet :: mv 1 4 ++ mv 3 3 ++ mv 1 7.
Example C110_orderly_holds :
  always (par_ 5) (fun s l => fair nobody l /\ one_sender s l /\ calm s l /\ room (par_ 5) s l) plain (start 0) /\
  exists s, run (par_ 5) plain (start 0) = Some s /\
    exists l1 l2, log s = l1 ++ ERet 1 (COk 8) :: l2 /\ asked 1 l2 = Some OGet.
Proof.
  split.
  - apply (check_always _ 4 (fun s l => b_fair nobody l && c_one 4 s l && c_calm 4 s l && c_room (par_ 5) 4 s l)).
    + intros s l I0 H. apply andb_prop in H. destruct H as [H H4]. apply andb_prop in H. destruct H as [H H3]. apply andb_prop in H. destruct H as [H1 H2].
      split; [|split; [eapply c_one_ok; eauto|split; [eapply c_calm_ok; eauto|eapply c_room_ok; eauto]]].
      now apply b_fair1.
    + intros b _. reflexivity.
    + vm_compute. reflexivity.
  - run_lit (par_ 5) plain (start 0%Z) s R L.
    exists s. split; [exact R|]. rewrite L.
    match goal with |- exists l1 l2, ?x :: ?y = _ /\ _ => exists [], y end. split; reflexivity.
Qed.

(** ** findings *)

(** Update does not take the lock that serialises Sets, and an application cannot
    serialise them itself, because the value of a Set is sent after its handler has
    returned.  The timestamp is incremented by a load and a store; an Update that is
    interrupted between the two resets it to an old number.  Here it does so after two
    Sets; the next Set succeeds, nothing else is in progress, and the following Get
    answers the value from before. *)
Definition race : list label :=
  LCall 3 (OUpd 7) :: mv 3 3 ++ set_ 1 1 ++ set_ 1 2 ++ mv 3 3 ++ set_ 1 3 ++ get_ 6 2.
Theorem C110_update_during_set_refuted : exists p v0 ls s l2,
  always p (fun s l => fair nobody l /\ calm s l /\ room p s l) ls (start v0) /\
  run p ls (start v0) = Some s /\ log s = ERet 2 (COk 2) :: l2 /\ asked 2 l2 = Some OGet /\
  current (before 2 l2) = 3%Z /\ (forall b w, ~ In (ESent b w) (since 2 l2)).
Proof.
  exists (par_ 6), 0%Z, race.
  run_lit (par_ 6) race (start 0%Z) s R L.
  exists s. match type of L with _ = ?x :: ?y => exists y end.
  split; [|split; [exact R|split; [exact L|split; [reflexivity|split; [reflexivity|]]]]].
  - apply (check_always _ 4 (fun s l => b_fair nobody l && c_calm 4 s l && c_room (par_ 6) 4 s l)).
    + intros s1 l I0 H. apply andb_prop in H. destruct H as [H H4]. apply andb_prop in H. destruct H as [H H3].
      split; [|split; [eapply c_calm_ok; eauto|eapply c_room_ok; eauto]]. now apply b_fair1.
    + intros b _. reflexivity.
    + vm_compute. reflexivity.
  - intros b w X. cbn in X. exact X.
Qed.

(** The handler validates the value where it lies: in the consumer's shared memory, from
    which it is then copied into the field.  A consumer that changes it in between makes
    every other consumer get a value the handler has not let pass. *)
Definition tampered : list label :=
  LCall 1 (OSet 5) :: mv 1 5 ++ [LTamper 1 (COk 1000)] ++ mv 1 5 ++ get_ 4 2.
Theorem C110_value_changed_after_validation_refuted : exists p v0 bad ls s l2 v,
  Forall (fair bad) ls /\ bad 2 = false /\ run p ls (start v0) = Some s /\ log s = ERet 2 (COk v) :: l2 /\ asked 2 l2 = Some OGet /\
  ~ admitted p v0 l2 v.
Proof.
  exists (par_ 4), 0%Z, (fun a => Nat.eqb a 1), tampered.
  run_lit (par_ 4) tampered (start 0%Z) s R L.
  exists s. match type of L with _ = ERet 2 (COk ?v) :: ?y => exists y, v end.
  split; [apply b_fair_ok; reflexivity|]. split; [reflexivity|]. split; [exact R|]. split; [exact L|]. split; [reflexivity|].
  intros [X|[[a X]|[a [d [X E]]]]].
  - discriminate.
  - cbn in X. repeat (destruct X as [X|X]; [discriminate|]). exact X.
  - cbn in E. unfold clamp in E. destruct (100 <? d)%Z eqn:C; lia.
Qed.

(** If it replaces the value by an error instead, the provider is terminated. *)
Theorem C110_error_during_set_refuted : exists p v0 ls s,
  Forall (fair (fun a => Nat.eqb a 1)) ls /\ run p ls (start v0) = Some s /\ dead s = true.
Proof.
  exists (par_ 4), 0%Z, (LCall 1 (OSet 5) :: mv 1 2 ++ [LTamper 1 (CErr EBinding)] ++ mv 1 1).
  assert (D : match run (par_ 4) (LCall 1 (OSet 5) :: mv 1 2 ++ [LTamper 1 (CErr EBinding)] ++ mv 1 1) (start 0) with Some s => dead s | None => false end = true) by (vm_compute; reflexivity).
  destruct (run _ _ _) as [s|]; [|discriminate]. exists s. split; [apply b_fair_ok; reflexivity|]. now split.
Qed.

Definition room2 (p : par) (s : st) (l : label) : Prop :=
  forall a, l = LMove a -> begins (at_ s a) = true -> held p s + 2 <= p_slots p.
Definition c_room2 p m := cond m (fun s => Nat.leb (held p s + 2) (p_slots p)).
Lemma c_room2_ok p m s l : c_room2 p m s l = true -> room2 p s l.
Proof. intros H a -> B. cbn in H. rewrite B in H. cbn in H. now apply Nat.leb_le. Qed.
(** With one slot fewer, a value can be written over the latest one; a Get meanwhile
    answers an older value, although the newer one had been set, and answered, before the
    Get began. *)
Definition few : list label :=
  LRef 0 :: set_ 1 1 ++ LCall 2 OGet :: mv 2 6 ++ set_ 1 2 ++ LCall 3 (OUpd 3) :: mv 3 1 ++ mv 2 3 ++ get_ 3 2.
Theorem C110_few_slots_refuted : exists p v0 ls s l2,
  always p (fun s l => fair nobody l /\ one_sender s l /\ calm s l /\ room2 p s l) ls (start v0) /\
  run p ls (start v0) = Some s /\ log s = ERet 2 (COk 1) :: l2 /\ asked 2 l2 = Some OGet /\
  ~ In 1%Z (values_during 2 l2) /\ In (ERet 1 (COk 2)) (before 2 l2).
Proof.
  exists (par_ 3), 0%Z, few.
  run_lit (par_ 3) few (start 0%Z) s R L.
  exists s. match type of L with _ = ?x :: ?y => exists y end.
  split; [|split; [exact R|split; [exact L|split; [reflexivity|split]]]].
  - apply (check_always _ 4 (fun s l => b_fair nobody l && c_one 4 s l && c_calm 4 s l && c_room2 (par_ 3) 4 s l)).
    + intros s1 l I0 H. apply andb_prop in H. destruct H as [H H4]. apply andb_prop in H. destruct H as [H H3]. apply andb_prop in H. destruct H as [H1 H2].
      split; [|split; [eapply c_one_ok; eauto|split; [eapply c_calm_ok; eauto|eapply c_room2_ok; eauto]]]. now apply b_fair1.
    + intros b _. reflexivity.
    + vm_compute. reflexivity.
  - intros X. cbn in X. destruct X as [X|[]]. discriminate.
  - cbn. tauto.
Qed.

(** Get loads the slots' states one after the other.  If meanwhile values are sent one
    after the other, it can find each slot just being written, except one a subscriber
    still holds: it answers the value of that one, however old, although newer values
    had been set before the call.  The number of slots does not help. *)
Definition stale : list label :=
  LRef 0 :: set_ 1 1 ++ set_ 1 2 ++ set_ 1 3 ++ set_ 1 4 ++ [LCall 2 OGet] ++ mv 2 2
  ++ (LCall 3 (OUpd 11) :: mv 3 1) ++ mv 2 1 ++ mv 3 5
  ++ (LCall 3 (OUpd 12) :: mv 3 1) ++ mv 2 1 ++ mv 3 5
  ++ (LCall 3 (OUpd 13) :: mv 3 1) ++ mv 2 1 ++ mv 3 5
  ++ (LCall 3 (OUpd 14) :: mv 3 1) ++ mv 2 1 ++ mv 2 5.
Theorem C110_values_during_get_refuted : exists p v0 ls s l2,
  always p (fun s l => fair nobody l /\ one_sender s l /\ room p s l) ls (start v0) /\
  run p ls (start v0) = Some s /\ log s = ERet 2 (COk v0) :: l2 /\ asked 2 l2 = Some OGet /\
  ~ In v0 (values_during 2 l2).
Proof.
  exists (par_ 5), 0%Z, stale.
  run_lit (par_ 5) stale (start 0%Z) s R L.
  exists s. match type of L with _ = ?x :: ?y => exists y end.
  split; [|split; [exact R|split; [exact L|split; [reflexivity|]]]].
  - apply (check_always _ 4 (fun s l => b_fair nobody l && c_one 4 s l && c_room (par_ 5) 4 s l)).
    + intros s1 l I0 H. apply andb_prop in H. destruct H as [H H4]. apply andb_prop in H. destruct H as [H H3].
      split; [|split; [eapply c_one_ok; eauto|eapply c_room_ok; eauto]]. now apply b_fair1.
    + intros b _. reflexivity.
    + vm_compute. reflexivity.
  - intros X. cbn in X. repeat (destruct X as [X|X]; [discriminate|]). exact X.
Qed.

Print Assumptions C110_set_answer_partial.
Print Assumptions C110_update_answer_partial.
Print Assumptions C110_get_admitted_partial.
Print Assumptions C110_no_termination_partial.
Print Assumptions C110_one_at_a_time.
Print Assumptions C110_slots_exclusive.
Print Assumptions C110_get_current_partial.
Print Assumptions C110_get_latest_partial.
Print Assumptions C110_no_failure_partial.
Print Assumptions C110_update_during_set_refuted.
Print Assumptions C110_value_changed_after_validation_refuted.
Print Assumptions C110_error_during_set_refuted.
Print Assumptions C110_few_slots_refuted.
Print Assumptions C110_values_during_get_refuted.
