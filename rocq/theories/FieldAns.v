(** Answers of Set and Update in every run. *)
From Verif Require Import Base FieldModel FieldSpec FieldProof.
Open Scope nat_scope.

(** events of others *)
Definition other (a : nat) (e : ev) : Prop :=
  match e with ECall b _ | ERet b _ => b <> a | ESent (Some b) _ => b <> a | ESent None _ => True end.

Lemma since_other a e l : calls a e = false -> since a (e :: l) = e :: since a l.
Proof. cbn. intros ->. reflexivity. Qed.
Lemma other_calls a e : other a e -> calls a e = false.
Proof. destruct e; cbn; intros H; try reflexivity. now apply Nat.eqb_neq. Qed.
Lemma asked_skip a e l : calls a e = false -> asked a (e :: l) = asked a l.
Proof. destruct e; cbn; intros H; try reflexivity. now rewrite H. Qed.
Lemma before_skip a e l : calls a e = false -> before a (e :: l) = before a l.
Proof. cbn. intros ->. reflexivity. Qed.

(** what a step of someone else leaves alone *)
Record frame (a : nat) (s s' : st) : Prop := {
  f_at : at_ s' a = at_ s a;
  f_arg : arg s' a = arg s a;
  f_ret : ret s' a = ret s a;
  f_log : log s' = log s \/ exists e, log s' = e :: log s /\ other a e
}.

Ltac fr := constructor; st_cbn; rewrite ?fupd_neq by assumption; try reflexivity;
  first [left; reflexivity | right; eexists; split; [reflexivity|cbn; congruence]].

Lemma send_frame p a b v n s s' r : a <> b -> send_step p b v n s = (s', r) -> frame a s s'.
Proof.
  intros N H. destruct n; cbn [send_step] in H; [destruct (alloc p s)|..]; injection H as <- <-; fr.
Qed.

Lemma frame_at a b x s s' : a <> b -> frame a s s' -> frame a s (set_at s' b x).
Proof. intros N F. destruct F. constructor; st_cbn; auto. now rewrite fupd_neq. Qed.
Lemma frame_ret a b x s s' : a <> b -> frame a s s' -> frame a s (set_ret s' b x).
Proof. intros N F. destruct F. constructor; st_cbn; auto. now rewrite fupd_neq. Qed.

Lemma move_frame p a b s s' : a <> b -> move p b s = Some s' -> frame a s s'.
Proof.
  intros N H. unfold move in H. destruct (at_ s b) eqn:E; try discriminate.
  - destruct (mset s); [discriminate|]. injection H as <-. fr.
  - injection H as <-. fr.
  - destruct (ret s b); injection H as <-; fr.
  - destruct (ret s b); injection H as <-; fr.
  - destruct (send_step _ _ _ _ _) as [s1 [n1|[|]]] eqn:F; injection H as <-;
      eauto using frame_at, frame_ret, send_frame.
  - injection H as <-. fr.
  - destruct (mget s); [discriminate|]. injection H as <-. fr.
  - destruct (Nat.ltb i (p_slots p)); [injection H as <-; fr|]. destruct b0; injection H as <-; fr.
  - destruct b0 as [[[i t] r]|]; [|discriminate]. destruct (same _ _ _); [|destruct (Nat.ltb _ _)]; injection H as <-; fr.
  - injection H as <-. fr.
  - injection H as <-. fr.
  - injection H as <-. fr.
  - destruct (send_step _ _ _ _ _) as [s1 [n1|[|]]] eqn:F; injection H as <-;
      eauto using frame_at, frame_ret, send_frame.
  - injection H as <-. fr.
Qed.

(** the agent of a label *)
Definition actor (l : label) : option nat :=
  match l with LCall a _ | LMove a | LTamper a _ | LTamperArg a _ => Some a | _ => None end.

Lemma actor_dec l a : {actor l = Some a} + {actor l <> Some a}.
Proof. destruct (actor l) as [b|]; [|right; discriminate]. destruct (Nat.eq_dec b a) as [->|N]; [now left|right; congruence]. Qed.

Lemma step_frame p a l s s' : actor l <> Some a -> step p l s = Some s' -> frame a s s'.
Proof.
  intros N H. unfold step in H. destruct (dead s); [discriminate|]. destruct l as [b o|b|i|i|b x|b d]; cbn in N.
  - assert (a <> b) by congruence. destruct (at_ s b) eqn:E; try discriminate. injection H as <-. destruct o; cbn [begin]; fr.
  - assert (a <> b) by congruence. eauto using move_frame.
  - destruct (Nat.ltb i (p_slots p)); [|discriminate]. destruct (sst (slots s i)); try discriminate. injection H as <-. fr.
  - destruct (sext (slots s i)); [discriminate|]. injection H as <-. fr.
  - assert (a <> b) by congruence. injection H as <-. fr.
  - assert (a <> b) by congruence. injection H as <-. fr.
Qed.

(** samples are written by their sender only *)
Lemma move_val p b s s' i : move p b s = Some s' -> slot_of (at_ s b) <> Some i -> sval (slots s' i) = sval (slots s i).
Proof.
  intros H N. unfold move in H. destruct (at_ s b) eqn:E; try discriminate.
  - destruct (mset s); [discriminate|]. now injection H as <-.
  - now injection H as <-.
  - destruct (ret s b); now injection H as <-.
  - destruct (ret s b); now injection H as <-.
  - destruct n as [|j|j|j t|j]; cbn [send_step] in H; [destruct (alloc p s)|..]; injection H as <-; st_cbn; cbn in N; try reflexivity;
      fsplit; cbn; congruence.
  - now injection H as <-.
  - destruct (mget s); [discriminate|]. now injection H as <-.
  - destruct (Nat.ltb _ (p_slots p)); [now injection H as <-|]. destruct b0; now injection H as <-.
  - destruct b0 as [[[j t] r]|]; [|discriminate]. destruct (same _ _ _); [|destruct (Nat.ltb _ _)]; injection H as <-; st_cbn; try reflexivity.
    fsplit; reflexivity.
  - now injection H as <-.
  - injection H as <-; st_cbn. fsplit; reflexivity.
  - now injection H as <-.
  - destruct n as [|j|j|j t|j]; cbn [send_step] in H; [destruct (alloc p s)|..]; injection H as <-; st_cbn; cbn in N; try reflexivity;
      fsplit; cbn; congruence.
  - now injection H as <-.
Qed.

Lemma step_val p l s s' i : step p l s = Some s' -> (forall b, l = LMove b -> slot_of (at_ s b) <> Some i) ->
  sval (slots s' i) = sval (slots s i).
Proof.
  intros H N. unfold step in H. destruct (dead s); [discriminate|]. destruct l as [b o|b|j|j|b x|b d].
  - destruct (at_ s b) eqn:E; try discriminate. injection H as <-. destruct o; reflexivity.
  - eauto using move_val.
  - destruct (Nat.ltb j (p_slots p)); [|discriminate]. destruct (sst (slots s j)); try discriminate. injection H as <-. st_cbn. fsplit; reflexivity.
  - destruct (sext (slots s j)); [discriminate|]. injection H as <-. st_cbn. fsplit; reflexivity.
  - now injection H as <-.
  - now injection H as <-.
Qed.

(** ** where an agent is fits what it asked *)
Definition finv (s : st) : Prop :=
  forall a, match asked a (log s) with Some o => fits (at_ s a) o | None => at_ s a = PIdle end.

Lemma finv_frame a s s' : frame a s s' -> asked a (log s') = asked a (log s).
Proof.
  intros F. destruct (f_log _ _ _ F) as [->|[e [-> O]]]; [reflexivity|]. apply asked_skip, other_calls, O.
Qed.

Lemma fits_move p a s s' o : move p a s = Some s' -> fits (at_ s a) o -> fits (at_ s' a) o /\ asked a (log s') = asked a (log s).
Proof.
  intros H N. unfold move in H. destruct (at_ s a) eqn:E; try discriminate; destruct o; try (exfalso; exact N).
  - destruct (mset s); [discriminate|]. injection H as <-; st_cbn; now rewrite ?fupd_eq.
  - injection H as <-; st_cbn; now rewrite ?fupd_eq.
  - destruct (ret s a); injection H as <-; st_cbn; rewrite ?fupd_eq, ?E; now split.
  - destruct (ret s a); injection H as <-; st_cbn; rewrite ?fupd_eq, ?E; now split.
  - destruct n as [|j|j|j t|j]; cbn [send_step] in H; [destruct (alloc p s)|..]; injection H as <-; st_cbn; rewrite ?fupd_eq; now split.
  - injection H as <-; st_cbn; now rewrite ?fupd_eq.
  - destruct (mget s); [discriminate|]. injection H as <-; st_cbn; now rewrite ?fupd_eq.
  - destruct (Nat.ltb _ (p_slots p)); [injection H as <-; st_cbn; now rewrite ?fupd_eq|]. destruct b; injection H as <-; st_cbn; now rewrite ?fupd_eq.
  - destruct b as [[[j t] r]|]; [|discriminate]. destruct (same _ _ _); [|destruct (Nat.ltb _ _)]; injection H as <-; st_cbn; now rewrite ?fupd_eq.
  - injection H as <-; st_cbn; now rewrite ?fupd_eq.
  - injection H as <-; st_cbn; now rewrite ?fupd_eq.
  - injection H as <-; st_cbn; now rewrite ?fupd_eq.
  - destruct n as [|j|j|j t|j]; cbn [send_step] in H; [destruct (alloc p s)|..]; injection H as <-; st_cbn; rewrite ?fupd_eq; now split.
  - injection H as <-; st_cbn; now rewrite ?fupd_eq.
Qed.

Lemma step_f p l s s' : finv s -> step p l s = Some s' -> finv s'.
Proof.
  intros F H a. specialize (F a). destruct (actor_dec l a) as [A|A].
  2:{ pose proof (step_frame _ _ _ _ _ A H) as G. rewrite (finv_frame _ _ _ G), (f_at _ _ _ G). exact F. }
  unfold step in H. destruct (dead s); [discriminate|]. destruct l as [b o|b|i|i|b x|b d]; cbn in A; try discriminate; injection A as ->.
  - destruct (at_ s a) eqn:E; try discriminate. injection H as <-. destruct o; cbn [begin]; st_cbn; cbn [asked]; rewrite Nat.eqb_refl, fupd_eq; exact I || reflexivity.
  - destruct (asked a (log s)) as [o|] eqn:Q.
    + destruct (fits_move _ _ _ _ _ H F) as [G1 G2]. rewrite G2, Q. exact G1.
    + unfold move in H. rewrite F in H. discriminate.
  - injection H as <-. st_cbn. exact F.
  - injection H as <-. st_cbn. exact F.
Qed.

Lemma start_f v0 : finv (start v0).
Proof. intros a. reflexivity. Qed.

(** ** answers *)
Definition nosent (a : nat) (l : list ev) : Prop := forall v, ~ In (ESent (Some a) v) (since a l).
Definition filled (s : st) (n : snd) (w : Z) : Prop :=
  match n with NLoad i | NStore i _ | NReady i => sval (slots s i) = w | _ => True end.
Definition settled (s : st) (a : nat) (w : Z) : Prop :=
  (ret s a = COk w /\ In (ESent (Some a) w) (since a (log s))) \/ ((exists e, ret s a = CErr e) /\ nosent a (log s)).

Definition aok (p : par) (s : st) (a : nat) : Prop :=
  match asked a (log s), at_ s a with
  | Some (OSet d), (PSetLock | PSetCopy) => arg s a = d /\ nosent a (log s)
  | Some (OSet d), PSetUser => ret s a = COk d /\ nosent a (log s)
  | Some (OSet d), PSetValue => ret s a = COk (p_fix p d) /\ nosent a (log s)
  | Some (OSet d), PSetSend n => ret s a = COk (p_fix p d) /\ nosent a (log s) /\ filled s n (p_fix p d)
  | Some (OSet d), PSetUnlock => settled s a (p_fix p d)
  | Some (OUpd v), PUpdSend _ n => nosent a (log s) /\ filled s n v
  | Some (OUpd v), PUpdRet => settled s a v
  | _, _ => True
  end.

(** what an answer [r] to [a], given after [l], has to be *)
Definition answer_ok (p : par) (a : nat) (r : cell) (l : list ev) : Prop :=
  match asked a l with
  | Some (OSet d) => match r with COk v => v = p_fix p d /\ In (ESent (Some a) v) (since a l) | CErr _ => nosent a l end
  | Some (OUpd w) => match r with COk v => v = w /\ In (ESent (Some a) v) (since a l) | CErr _ => nosent a l end
  | _ => True
  end.

Fixpoint answers_ok (p : par) (bad : nat -> bool) (l : list ev) : Prop :=
  match l with
  | [] => True
  | ERet a r :: l2 => (bad a = false -> answer_ok p a r l2) /\ answers_ok p bad l2
  | _ :: l2 => answers_ok p bad l2
  end.

Lemma nosent_other a e l : other a e -> nosent a l -> nosent a (e :: l).
Proof.
  intros O N v. rewrite since_other by (apply other_calls, O). intros [H|H]; [subst e; cbn in O; congruence|]. now apply (N v).
Qed.

Lemma aok_frame p s s' a :
  frame a s s' -> (forall i, slot_of (at_ s a) = Some i -> sval (slots s' i) = sval (slots s i)) -> aok p s a -> aok p s' a.
Proof.
  intros F V. unfold aok. rewrite (finv_frame _ _ _ F), (f_at _ _ _ F), (f_ret _ _ _ F), (f_arg _ _ _ F).
  assert (N : nosent a (log s) -> nosent a (log s')).
  { destruct (f_log _ _ _ F) as [->|[e [-> O]]]; auto using nosent_other. }
  assert (M : forall w, In (ESent (Some a) w) (since a (log s)) -> In (ESent (Some a) w) (since a (log s'))).
  { intros w. destruct (f_log _ _ _ F) as [->|[e [-> O]]]; [auto|]. rewrite since_other by (apply other_calls, O). intros; now right. }
  assert (S' : forall w, settled s a w -> settled s' a w).
  { intros w. unfold settled. rewrite (f_ret _ _ _ F). intuition. }
  assert (Fl : forall n w, slot_of_snd n = slot_of (at_ s a) -> filled s n w -> filled s' n w).
  { intros n w E. destruct n; cbn in *; auto; rewrite V; auto. }
  destruct (asked a (log s)) as [[d| |v]|]; auto; destruct (at_ s a) eqn:E; auto; intuition.
Qed.

Lemma nosent_skip a e l : calls a e = false -> (forall v, e <> ESent (Some a) v) -> nosent a l -> nosent a (e :: l).
Proof. intros C N M v. rewrite since_other by exact C. intros [H|H]; [now apply (N v)|now apply (M v)]. Qed.

Lemma nosent_call a o l : nosent a (ECall a o :: l).
Proof. intros v. cbn. rewrite Nat.eqb_refl. exact (fun H => H). Qed.

Lemma aok_own p a s s' : finv s -> aok p s a -> move p a s = Some s' -> aok p s' a.
Proof.
  intros F A H. specialize (F a). unfold aok in A. unfold move in H. destruct (at_ s a) eqn:E; try discriminate;
    (destruct (asked a (log s)) as [o|] eqn:Q; [|discriminate]); destruct o; try (exfalso; exact F).
  - destruct (mset s); [discriminate|]. injection H as <-. unfold aok; st_cbn. rewrite Q, fupd_eq. exact A.
  - injection H as <-. unfold aok; st_cbn. rewrite Q, !fupd_eq. destruct A as [-> A]. now split.
  - destruct A as [R A]. rewrite R in H. injection H as <-. unfold aok; st_cbn. rewrite Q, ?fupd_eq. now split.
  - destruct A as [R A]. rewrite R in H. injection H as <-. unfold aok; st_cbn. rewrite Q, ?fupd_eq. repeat split; assumption.
  - destruct A as [R [A B]]. rewrite R in H. destruct n as [|j|j|j t|j]; cbn [send_step] in H.
    + destruct (alloc p s); injection H as <-; unfold aok; st_cbn; rewrite Q, ?fupd_eq.
      * repeat split; assumption.
      * right. st_cbn. rewrite fupd_eq. split; [now exists EAlloc|exact A].
    + injection H as <-; unfold aok; st_cbn; rewrite Q, ?fupd_eq. repeat split; try assumption. cbn. now rewrite fupd_eq.
    + injection H as <-; unfold aok; st_cbn; rewrite Q, ?fupd_eq. repeat split; assumption.
    + injection H as <-; unfold aok; st_cbn; rewrite Q, ?fupd_eq. repeat split; assumption.
    + injection H as <-; unfold aok; st_cbn. cbn [asked]. rewrite Q, ?fupd_eq. cbn in B. rewrite B. left. st_cbn. split; [exact R|].
      cbn. now left.
  - injection H as <-. unfold aok; st_cbn. cbn [asked]. rewrite Q, fupd_eq. exact I.
  - destruct (mget s); [discriminate|]. injection H as <-. unfold aok; st_cbn. now rewrite Q.
  - destruct (Nat.ltb _ (p_slots p)); [injection H as <-; unfold aok; st_cbn; now rewrite Q|]. destruct b; injection H as <-; unfold aok; st_cbn; now rewrite Q.
  - destruct b as [[[j t] r]|]; [|discriminate]. destruct (same _ _ _); [|destruct (Nat.ltb _ _)]; injection H as <-; unfold aok; st_cbn; now rewrite Q.
  - injection H as <-; unfold aok; st_cbn; now rewrite Q.
  - injection H as <-; unfold aok; st_cbn; now rewrite Q.
  - injection H as <-; unfold aok; st_cbn; cbn [asked]; now rewrite Q.
  - destruct A as [A B]. cbn in F. subst v0. destruct n as [|j|j|j t|j]; cbn [send_step] in H.
    + destruct (alloc p s); injection H as <-; unfold aok; st_cbn; rewrite Q, ?fupd_eq.
      * repeat split; assumption.
      * right. st_cbn. rewrite fupd_eq. split; [now exists EAlloc|exact A].
    + injection H as <-; unfold aok; st_cbn; rewrite Q, ?fupd_eq. repeat split; try assumption. cbn. now rewrite fupd_eq.
    + injection H as <-; unfold aok; st_cbn; rewrite Q, ?fupd_eq. repeat split; assumption.
    + injection H as <-; unfold aok; st_cbn; rewrite Q, ?fupd_eq. repeat split; assumption.
    + injection H as <-; unfold aok; st_cbn. cbn [asked]. rewrite Q, ?fupd_eq. cbn in B. rewrite B. left. st_cbn. rewrite fupd_eq. split; [reflexivity|].
      cbn. now left.
  - injection H as <-. unfold aok; st_cbn. cbn [asked]. rewrite Q, fupd_eq. exact I.
Qed.

(** the answer given by a move *)
Lemma move_answer p a s s' : finv s -> aok p s a -> move p a s = Some s' ->
  log s' = log s \/ (exists v, log s' = ESent (Some a) v :: log s) \/ (exists r, log s' = ERet a r :: log s /\ answer_ok p a r (log s)).
Proof.
  intros F A H. specialize (F a). unfold aok in A. unfold move in H. destruct (at_ s a) eqn:E; try discriminate;
    (destruct (asked a (log s)) as [o|] eqn:Q; [|discriminate]); destruct o; try (exfalso; exact F).
  - destruct (mset s); [discriminate|]. injection H as <-. now left.
  - injection H as <-. now left.
  - destruct (ret s a); injection H as <-; now left.
  - destruct (ret s a); injection H as <-; now left.
  - destruct n as [|j|j|j t|j]; cbn [send_step] in H; [destruct (alloc p s)|..]; injection H as <-; st_cbn; auto.
    right; left. eexists. reflexivity.
  - injection H as <-. right; right. exists (ret s a). split; [reflexivity|]. unfold answer_ok. rewrite Q.
    destruct A as [[-> A]|[[e ->] A]]; [now split|exact A].
  - destruct (mget s); [discriminate|]. injection H as <-. now left.
  - destruct (Nat.ltb _ (p_slots p)); [injection H as <-; now left|]. destruct b; injection H as <-; now left.
  - destruct b as [[[j t] r]|]; [|discriminate]. destruct (same _ _ _); [|destruct (Nat.ltb _ _)]; injection H as <-; now left.
  - injection H as <-. now left.
  - injection H as <-. now left.
  - injection H as <-. right; right. exists (ret s a). split; [reflexivity|]. unfold answer_ok. now rewrite Q.
  - destruct n as [|j|j|j t|j]; cbn [send_step] in H; [destruct (alloc p s)|..]; injection H as <-; st_cbn; auto.
    right; left. eexists. reflexivity.
  - injection H as <-. right; right. exists (ret s a). split; [reflexivity|]. unfold answer_ok. rewrite Q.
    destruct A as [[-> A]|[[e ->] A]]; [now split|exact A].
Qed.

(** shape of what a move adds to the log, without assumptions *)
Lemma move_log p a s s' : move p a s = Some s' ->
  log s' = log s \/ (exists v, log s' = ESent (Some a) v :: log s) \/ log s' = ERet a (ret s a) :: log s.
Proof.
  intros H. unfold move in H. destruct (at_ s a) eqn:E; try discriminate.
  - destruct (mset s); [discriminate|]. injection H as <-. now left.
  - injection H as <-. now left.
  - destruct (ret s a); injection H as <-; now left.
  - destruct (ret s a); injection H as <-; now left.
  - destruct n as [|j|j|j t|j]; cbn [send_step] in H; [destruct (alloc p s)|..]; injection H as <-; st_cbn; auto.
    right; left. eexists. reflexivity.
  - injection H as <-. now right; right.
  - destruct (mget s); [discriminate|]. injection H as <-. now left.
  - destruct (Nat.ltb _ (p_slots p)); [injection H as <-; now left|]. destruct b; injection H as <-; now left.
  - destruct b as [[[j t] r]|]; [|discriminate]. destruct (same _ _ _); [|destruct (Nat.ltb _ _)]; injection H as <-; now left.
  - injection H as <-. now left.
  - injection H as <-. now left.
  - injection H as <-. now right; right.
  - destruct n as [|j|j|j t|j]; cbn [send_step] in H; [destruct (alloc p s)|..]; injection H as <-; st_cbn; auto.
    right; left. eexists. reflexivity.
  - injection H as <-. now right; right.
Qed.

Record ainv (p : par) (bad : nat -> bool) (s : st) : Prop := {
  a_k : kinv p s; a_f : finv s;
  a_ok : forall a, bad a = false -> aok p s a;
  a_log : answers_ok p bad (log s)
}.

Lemma start_a p bad v0 : 1 <= p_slots p -> ainv p bad (start v0).
Proof. intros Hp. constructor; [now apply start_k|apply start_f|intros a _; exact I|exact I]. Qed.

Lemma step_a p bad l s s' : ainv p bad s -> fair bad l -> step p l s = Some s' -> ainv p bad s'.
Proof.
  intros [K F A L] G H. constructor; [eauto using step_k|eauto using step_f| |].
  - intros a Ha. destruct (actor_dec l a) as [B|B].
    + unfold step in H. destruct (dead s); [discriminate|]. destruct l as [b o|b|i|i|b x|b d]; cbn in B, G; try discriminate; injection B as ->; try congruence.
      * destruct (at_ s a) eqn:E; try discriminate. injection H as <-. destruct o; unfold aok; cbn [begin]; st_cbn; cbn [asked]; rewrite Nat.eqb_refl, ?fupd_eq.
        -- split; [reflexivity|apply nosent_call].
        -- exact I.
        -- split; [apply nosent_call|exact I].
      * eauto using aok_own.
    + apply (aok_frame p s); [eauto using step_frame| |auto].
      intros i Hi. apply (step_val _ _ _ _ _ H). intros b -> Hb.
      cbn in B. apply B. f_equal. exact (k_uni _ _ K b a i Hb Hi).
  - unfold step in H. destruct (dead s); [discriminate|]. destruct l as [b o|b|i|i|b x|b d].
    + destruct (at_ s b) eqn:E; try discriminate. injection H as <-. destruct o; exact L.
    + destruct (bad b) eqn:Bb.
      * destruct (move_log _ _ _ _ H) as [->|[[v ->]| ->]]; cbn; auto. split; [congruence|exact L].
      * destruct (move_answer p b s s' F (A b Bb) H) as [->|[[v ->]|[r [-> R]]]]; cbn; auto.
    + destruct (Nat.ltb i (p_slots p)); [|discriminate]. destruct (sst (slots s i)); try discriminate. now injection H as <-.
    + destruct (sext (slots s i)); [discriminate|]. now injection H as <-.
    + now injection H as <-.
    + now injection H as <-.
Qed.

Lemma run_a p bad : forall ls s s', ainv p bad s -> Forall (fair bad) ls -> run p ls s = Some s' -> ainv p bad s'.
Proof.
  induction ls as [|l r IH]; cbn [run]; intros s s' K G H; [now injection H as <-|].
  inversion G; subst. destruct (step p l s) eqn:E; [|discriminate]. eauto using step_a.
Qed.

Lemma answers_split p bad : forall l1 a r l2, answers_ok p bad (l1 ++ ERet a r :: l2) -> bad a = false -> answer_ok p a r l2.
Proof.
  induction l1 as [|e l1 IH]; cbn; intros a r l2 H B.
  - now apply H.
  - destruct e; cbn in H; [|destruct H as [_ H]|]; eauto.
Qed.
