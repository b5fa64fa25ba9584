(** Answers of Get: in every run they are admitted values; with values sent one
    after the other, and not while Get searches, they are the field's value. *)
From Verif Require Import Base FieldModel FieldSpec FieldProof FieldAns.
Open Scope nat_scope.

(** ** lists of events *)
Lemma asked_in a : forall l o, asked a l = Some o -> In (ECall a o) l.
Proof.
  induction l as [|e l IH]; cbn; intros o H; [discriminate|]. destruct e; auto.
  destruct (Nat.eqb_spec a0 a) as [->|N]; [injection H as ->; now left|auto].
Qed.

Lemma vd_mono a e l v : calls a e = false -> In v (values_during a l) -> In v (values_during a (e :: l)).
Proof.
  intros C. unfold values_during. rewrite since_other, before_skip by exact C. destruct e; cbn; auto.
Qed.

Lemma vd_sent a b v l : In v (values_during a (ESent b v :: l)).
Proof. unfold values_during. cbn. now left. Qed.

Lemma vd_current a : forall l o, asked a l = Some o -> In (current l) (values_during a l).
Proof.
  induction l as [|e l IH]; intros o H; [discriminate|]. destruct e as [b o'|b r|b v].
  - cbn in H. destruct (Nat.eqb_spec b a) as [->|N].
    + unfold values_during. cbn. rewrite Nat.eqb_refl. cbn. now left.
    + apply vd_mono; [cbn; now apply Nat.eqb_neq|]. cbn [current]. eauto.
  - apply vd_mono; [reflexivity|]. cbn [current]. eauto.
  - apply vd_sent.
Qed.

Lemma admitted_mono p v0 e l v : admitted p v0 l v -> admitted p v0 (e :: l) v.
Proof.
  intros [H|[[a H]|[a [d [H E]]]]]; [now left|right; left; exists a; now right|right; right; exists a, d; split; [now right|exact E]].
Qed.

(** ** what a move does to the slots *)
Definition stg (x : pc) : option snd := match x with PSetSend n | PUpdSend _ n => Some n | _ => None end.

Definition like (s s' : st) : Prop := forall i, sst (slots s' i) = sst (slots s i) /\ sval (slots s' i) = sval (slots s i).

Inductive effect (p : par) (b : nat) (s s' : st) : Prop :=
| EfQuiet : like s s' -> cnt s' = cnt s -> sending (at_ s b) = false -> sending (at_ s' b) = false ->
    (log s' = log s \/ log s' = ERet b (ret s b) :: log s) -> effect p b s s'
| EfAlloc i : begins (at_ s b) = true -> alloc p s = Some i ->
    slots s' = fupd (slots s) i (mkSlot SWr (sext (slots s i)) (sget (slots s i)) (sval (slots s i))) ->
    cnt s' = cnt s -> log s' = log s -> stg (at_ s' b) = Some (NWrite i) -> effect p b s s'
| EfWrite i v : stg (at_ s b) = Some (NWrite i) -> stg (at_ s' b) = Some (NLoad i) ->
    slots s' = fupd (slots s) i (mkSlot (sst (slots s i)) (sext (slots s i)) (sget (slots s i)) v) ->
    cnt s' = cnt s -> log s' = log s -> effect p b s s'
| EfLoad i : stg (at_ s b) = Some (NLoad i) -> stg (at_ s' b) = Some (NStore i (cnt s)) ->
    slots s' = slots s -> cnt s' = cnt s -> log s' = log s -> effect p b s s'
| EfStore i t : stg (at_ s b) = Some (NStore i t) -> stg (at_ s' b) = Some (NReady i) ->
    slots s' = slots s -> cnt s' = (t + 1)%N -> log s' = log s -> effect p b s s'
| EfReady i : stg (at_ s b) = Some (NReady i) -> stg (at_ s' b) = None ->
    slots s' = fupd (slots s) i (mkSlot (SRdy (cnt s)) 0 false (sval (slots s i))) ->
    cnt s' = cnt s -> log s' = ESent (Some b) (sval (slots s i)) :: log s -> effect p b s s'.

Lemma like_refl s s' : slots s' = slots s -> like s s'.
Proof. intros E i. rewrite E. now split. Qed.

Ltac quiet E := apply EfQuiet; st_cbn; rewrite ?fupd_eq, ?E; auto; try (apply like_refl; reflexivity).

Lemma move_effect p b s s' : move p b s = Some s' -> effect p b s s'.
Proof.
  intros H. unfold move in H. destruct (at_ s b) eqn:E; try discriminate.
  - destruct (mset s); [discriminate|]. injection H as <-. quiet E.
  - injection H as <-. quiet E.
  - destruct (ret s b); injection H as <-; quiet E.
  - destruct (ret s b); injection H as <-; quiet E.
  - destruct n as [|i|i|i t|i]; cbn [send_step] in H; [destruct (alloc p s) as [i|] eqn:Al|..]; injection H as <-.
    + apply (EfAlloc _ _ _ _ i); st_cbn; rewrite ?fupd_eq, ?E; auto.
    + quiet E.
    + apply (EfWrite _ _ _ _ i match ret s b with COk v => v | CErr _ => 0%Z end); st_cbn; rewrite ?fupd_eq, ?E; auto.
    + apply (EfLoad _ _ _ _ i); st_cbn; rewrite ?fupd_eq, ?E; auto.
    + apply (EfStore _ _ _ _ i t); st_cbn; rewrite ?fupd_eq, ?E; auto.
    + apply (EfReady _ _ _ _ i); st_cbn; rewrite ?fupd_eq, ?E; auto.
  - injection H as <-. quiet E.
  - destruct (mget s); [discriminate|]. injection H as <-. quiet E.
  - destruct (Nat.ltb _ (p_slots p)); [injection H as <-; quiet E|]. destruct b0; injection H as <-; quiet E.
  - destruct b0 as [[[j t] r]|]; [|discriminate]. destruct (same _ _ _); [|destruct (Nat.ltb _ _)]; injection H as <-; quiet E.
    intros i. st_cbn. fsplit; now split.
  - injection H as <-. quiet E.
  - injection H as <-. quiet E. intros j. st_cbn. fsplit; now split.
  - injection H as <-. quiet E.
  - destruct n as [|i|i|i t|i]; cbn [send_step] in H; [destruct (alloc p s) as [i|] eqn:Al|..]; injection H as <-.
    + apply (EfAlloc _ _ _ _ i); st_cbn; rewrite ?fupd_eq, ?E; auto.
    + quiet E.
    + apply (EfWrite _ _ _ _ i v); st_cbn; rewrite ?fupd_eq, ?E; auto.
    + apply (EfLoad _ _ _ _ i); st_cbn; rewrite ?fupd_eq, ?E; auto.
    + apply (EfStore _ _ _ _ i t); st_cbn; rewrite ?fupd_eq, ?E; auto.
    + apply (EfReady _ _ _ _ i); st_cbn; rewrite ?fupd_eq, ?E; auto.
  - injection H as <-. quiet E.
Qed.

Lemma stg_slot x n : stg x = Some n -> slot_of x = slot_of_snd n.
Proof. destruct x; cbn; intros H; try discriminate; now injection H as ->. Qed.

(** other steps: nothing is sent *)
Lemma env_like p l s s' : (forall b, l <> LMove b) -> step p l s = Some s' ->
  like s s' /\ cnt s' = cnt s /\ (forall a, sending (at_ s' a) = sending (at_ s a)) /\
  (log s' = log s \/ exists a o, log s' = ECall a o :: log s).
Proof.
  intros N H. unfold step in H. destruct (dead s); [discriminate|]. destruct l as [b o|b|j|j|b x|b d].
  - destruct (at_ s b) eqn:E; try discriminate. injection H as <-. split; [destruct o; now apply like_refl|]. split; [now destruct o|]. split.
    + intros a. destruct o; cbn [begin]; st_cbn; fsplit; rewrite ?E; reflexivity.
    + right. destruct o; do 2 eexists; reflexivity.
  - now destruct (N b).
  - destruct (Nat.ltb j (p_slots p)); [|discriminate]. destruct (sst (slots s j)) eqn:E; try discriminate. injection H as <-.
    repeat split; auto; st_cbn; fsplit; auto.
  - destruct (sext (slots s j)); [discriminate|]. injection H as <-. repeat split; auto; st_cbn; fsplit; auto.
  - injection H as <-. repeat split; auto.
  - injection H as <-. repeat split; auto.
Qed.

(** ** integrity *)
Record minv (p : par) (v0 : Z) (s : st) : Prop := {
  m_slot : forall i t, sst (slots s i) = SRdy t -> admitted p v0 (log s) (sval (slots s i));
  m_get : forall a v, asked a (log s) = Some OGet -> (at_ s a = PGetUnlock \/ exists i, at_ s a = PGetUnref i) -> ret s a = COk v -> admitted p v0 (log s) v;
  m_log : forall l1 a v l2, log s = l1 ++ ERet a (COk v) :: l2 -> asked a l2 = Some OGet -> admitted p v0 l2 v
}.

Lemma like_rdy s s' i t : like s s' -> sst (slots s' i) = SRdy t -> sst (slots s i) = SRdy t.
Proof. intros L H. destruct (L i) as [A _]. congruence. Qed.

(** the slots' part of a step *)
Lemma slots_m p v0 l s s' : ainv p nobody s -> minv p v0 s -> step p l s = Some s' ->
  forall i t, sst (slots s' i) = SRdy t -> admitted p v0 (log s') (sval (slots s' i)).
Proof.
  intros A M H i t R. destruct A as [K F A L]. destruct M as [M1 M2 M3].
  assert (Q : forall l', l' = log s \/ (exists e, l' = e :: log s) -> like s s' -> admitted p v0 l' (sval (slots s' i))).
  { intros l' E Lk. pose proof (like_rdy _ _ _ _ Lk R) as R'. destruct (Lk i) as [_ V]. rewrite V.
    destruct E as [->|[e ->]]; [eauto|apply admitted_mono; eauto]. }
  destruct l as [b o|b|j|j|b x|b d];
    try (destruct (fun X => env_like p _ s s' X H) as [Lk [_ [_ Lg]]]; [intros; discriminate|];
         apply Q; [destruct Lg as [Lg|[c [o' Lg]]]; [now left|right; eauto]|exact Lk]).
  unfold step in H. destruct (dead s); [discriminate|].
  destruct (move_effect _ _ _ _ H) as [Lk Ec _ _ Lg|j B Al Es Ec Lg _|j v Sg _ Es Ec Lg|j Sg _ Es Ec Lg|j u Sg _ Es Ec Lg|j Sg _ Es Ec Lg].
  - apply Q; [destruct Lg as [Lg|Lg]; [now left|right; eauto]|exact Lk].
  - rewrite Es in *. rewrite Lg. destruct (Nat.eq_dec i j) as [->|N]; [rewrite fupd_eq in *|rewrite fupd_neq in R by exact N; rewrite fupd_neq by exact N]; [discriminate|]. eauto.
  - rewrite Es in *. rewrite Lg. pose proof (stg_slot _ _ Sg) as So. cbn in So. destruct (k_own _ _ K b j So) as [_ W].
    destruct (Nat.eq_dec i j) as [->|N]; [rewrite fupd_eq in *|rewrite fupd_neq in R by exact N; rewrite fupd_neq by exact N]; [cbn in R; congruence|]. eauto.
  - rewrite Es in *. rewrite Lg. eauto.
  - rewrite Es in *. rewrite Lg. eauto.
  - rewrite Es, Lg in *. apply admitted_mono. destruct (Nat.eq_dec i j) as [->|N]; [rewrite fupd_eq in *|rewrite fupd_neq in R by exact N; rewrite fupd_neq by exact N]; [|eauto]. cbn [sval].
    specialize (A b eq_refl). specialize (F b). unfold aok in A.
    destruct (asked b (log s)) as [o|] eqn:Qa; [|rewrite F in Sg; discriminate].
    destruct (at_ s b); try discriminate; cbn in Sg; injection Sg as ->; destruct o; try (exfalso; exact F); cbn in A.
    + right; right. exists b, d. split; [now apply asked_in|apply A].
    + right; left. exists b. destruct A as [_ ->]. now apply asked_in.
Qed.

Lemma dead_false p l s s' : ainv p nobody s -> dead s = false -> step p l s = Some s' -> dead s' = false.
Proof.
  intros A D H. destruct A as [K F A L]. unfold step in H. rewrite D in H. destruct l as [b o|b|j|j|b x|b d].
  - destruct (at_ s b) eqn:E; try discriminate. injection H as <-. destruct o; exact D.
  - specialize (A b eq_refl). specialize (F b). unfold aok in A. unfold move in H.
    destruct (at_ s b) eqn:E; try discriminate; (destruct (asked b (log s)) as [o|] eqn:Q; [|discriminate]); destruct o; try (exfalso; exact F).
    + destruct (mset s); [discriminate|]. now injection H as <-.
    + now injection H as <-.
    + destruct A as [R A]. rewrite R in H. now injection H as <-.
    + destruct A as [R A]. rewrite R in H. now injection H as <-.
    + destruct n as [|i|i|i t|i]; cbn [send_step] in H; [destruct (alloc p s) as [i|]|..]; now injection H as <-.
    + now injection H as <-.
    + destruct (mget s); [discriminate|]. now injection H as <-.
    + destruct (Nat.ltb _ (p_slots p)); [now injection H as <-|]. destruct b0; now injection H as <-.
    + destruct b0 as [[[j t] r]|]; [|discriminate]. destruct (same _ _ _); [|destruct (Nat.ltb _ _)]; now injection H as <-.
    + now injection H as <-.
    + now injection H as <-.
    + now injection H as <-.
    + destruct n as [|i|i|i t|i]; cbn [send_step] in H; [destruct (alloc p s) as [i|]|..]; now injection H as <-.
    + now injection H as <-.
  - destruct (Nat.ltb j (p_slots p)); [|discriminate]. destruct (sst (slots s j)) eqn:E; try discriminate. now injection H as <-.
  - destruct (sext (slots s j)); [discriminate|]. now injection H as <-.
  - now injection H as <-.
  - now injection H as <-.
Qed.

(** ** the answer of Get, generically: [P l v] holds of a value in the slot Get references *)
(** what a Get in its last steps has found *)
Lemma get_own p a s s' v : finv s -> kinv p s -> move p a s = Some s' -> asked a (log s') = Some OGet ->
  (at_ s' a = PGetUnlock \/ exists i, at_ s' a = PGetUnref i) -> ret s' a = COk v ->
  log s' = log s /\
  ((exists i t, at_ s a = PGetCopy i /\ sst (slots s i) = SRdy t /\ v = sval (slots s i)) \/
   ((exists i, at_ s a = PGetUnref i) /\ ret s a = COk v)).
Proof.
  intros F K H Q X R. specialize (F a). unfold move in H. destruct (at_ s a) eqn:E; try discriminate;
    (destruct (asked a (log s)) as [o|] eqn:Qa; [|discriminate]); destruct o; try (exfalso; exact F).
  - destruct (mset s); [discriminate|]. injection H as <-. exfalso. st_cbn. congruence.
  - injection H as <-. exfalso. st_cbn. congruence.
  - destruct (ret s a); injection H as <-; exfalso; st_cbn; congruence.
  - destruct (ret s a); injection H as <-; exfalso; st_cbn; congruence.
  - destruct n as [|i|i|i t|i]; cbn [send_step] in H; [destruct (alloc p s) as [i|]|..]; injection H as <-; exfalso; st_cbn; cbn [asked] in Q; congruence.
  - injection H as <-. exfalso. st_cbn. cbn [asked] in Q. congruence.
  - destruct (mget s); [discriminate|]. injection H as <-. st_cbn. rewrite fupd_eq in X. exfalso. destruct X as [X|[i X]]; discriminate.
  - destruct (Nat.ltb _ (p_slots p)); [|destruct b]; injection H as <-; st_cbn; rewrite fupd_eq in *; exfalso.
    + destruct X as [X|[j X]]; discriminate.
    + destruct X as [X|[j X]]; discriminate.
    + try rewrite fupd_eq in R. discriminate R.
  - destruct b as [[[j t] r]|]; [|discriminate]. destruct (same _ _ _); [|destruct (Nat.ltb _ _)]; injection H as <-; st_cbn; rewrite fupd_eq in *; exfalso.
    + destruct X as [X|[i X]]; discriminate.
    + destruct X as [X|[i X]]; discriminate.
    + try rewrite fupd_eq in R. discriminate R.
  - injection H as <-. st_cbn. split; [reflexivity|]. left. rewrite fupd_eq in R. injection R as <-.
    assert (G : got (at_ s a) = Some i) by (rewrite E; reflexivity).
    apply (k_got _ _ K) in G. destruct (k_ref _ _ K i) as [[t T]|[_ T]]; [|congruence]. now exists i, t.
  - injection H as <-. st_cbn. split; [reflexivity|]. right. split; [now exists i|exact R].
  - injection H as <-. st_cbn. rewrite fupd_eq in X. exfalso. destruct X as [X|[i X]]; discriminate.
  - destruct n as [|i|i|i t|i]; cbn [send_step] in H; [destruct (alloc p s) as [i|]|..]; injection H as <-; exfalso; st_cbn; cbn [asked] in Q; congruence.
  - injection H as <-. exfalso. st_cbn. cbn [asked] in Q. congruence.
Qed.

(** an answer to Get is what it has found *)
Lemma get_answer p a s s' : finv s -> move p a s = Some s' -> log s' = ERet a (ret s a) :: log s -> asked a (log s) = Some OGet ->
  at_ s a = PGetUnlock.
Proof.
  intros F H Lg Q. specialize (F a). rewrite Q in F.
  assert (N : forall e : ev, log s <> e :: log s) by (intros e X; apply (f_equal (@length ev)) in X; cbn in X; lia).
  unfold move in H. destruct (at_ s a) eqn:E; try discriminate; try (exfalso; exact F); auto.
  - destruct (mget s); [discriminate|]. injection H as <-. st_cbn. now destruct (N _ Lg).
  - destruct (Nat.ltb _ (p_slots p)); [|destruct b]; injection H as <-; st_cbn; now destruct (N _ Lg).
  - destruct b as [[[j t] r]|]; [|discriminate]. destruct (same _ _ _); [|destruct (Nat.ltb _ _)]; injection H as <-; st_cbn; now destruct (N _ Lg).
  - injection H as <-. st_cbn. now destruct (N _ Lg).
  - injection H as <-. st_cbn. now destruct (N _ Lg).
Qed.

Lemma step_log p l s s' : step p l s = Some s' ->
  log s' = log s \/ (exists e, log s' = e :: log s /\ forall a r, e <> ERet a r) \/ (exists a, l = LMove a /\ log s' = ERet a (ret s a) :: log s).
Proof.
  intros H. destruct l as [b o|b|j|j|b x|b d].
  2:{ unfold step in H. destruct (dead s); [discriminate|]. destruct (move_log _ _ _ _ H) as [E|[[v E]|E]]; [now left| |].
      - right; left. exists (ESent (Some b) v). split; [exact E|discriminate].
      - right; right. now exists b. }
  all: destruct (fun X => env_like p _ s s' X H) as [_ [_ [_ Lg]]]; [intros; discriminate|];
    destruct Lg as [Lg|[c [o' Lg]]]; [now left|right; left; exists (ECall c o'); split; [exact Lg|discriminate]].
Qed.

Lemma split_cons (e : ev) l l1 x l2 : e :: l = l1 ++ x :: l2 -> (l1 = [] /\ e = x /\ l = l2) \/ exists l1', l1 = e :: l1' /\ l = l1' ++ x :: l2.
Proof.
  destruct l1 as [|y l1]; cbn; intros H.
  - injection H as -> ->. now left.
  - injection H as -> H. right. now exists l1.
Qed.

Lemma step_m p v0 l s s' : ainv p nobody s -> minv p v0 s -> fair nobody l -> step p l s = Some s' -> minv p v0 s'.
Proof.
  intros A M G H. pose proof (slots_m _ _ _ _ _ A M H) as Sl. destruct M as [M1 M2 M3]. pose proof A as [K F A' L].
  constructor; [exact Sl| |].
  - intros a v Q X R. destruct (actor_dec l a) as [B|B].
    + assert (H' := H). unfold step in H. destruct (dead s); [discriminate|]. destruct l as [b o|b|i|i|b x|b d]; cbn in B, G; try discriminate; injection B as ->.
      * destruct (at_ s a) eqn:E; try discriminate. injection H as <-. exfalso. destruct o; cbn [begin] in X; st_cbn; rewrite fupd_eq in X; destruct X as [X|[i X]]; discriminate.
      * destruct (get_own _ _ _ _ _ F K H Q X R) as [Lg [[i [t [E [T ->]]]]|[[i E] R']]]; rewrite Lg in *.
        -- eauto.
        -- apply (M2 a v Q); [right; now exists i|exact R'].
    + pose proof (step_frame _ _ _ _ _ B H) as Fr. rewrite (finv_frame _ _ _ Fr) in Q. rewrite (f_at _ _ _ Fr) in X. rewrite (f_ret _ _ _ Fr) in R.
      destruct (f_log _ _ _ Fr) as [->|[e [-> _]]]; [eauto|]. apply admitted_mono. eauto.
  - intros l1 a v l2 E Q. destruct (step_log _ _ _ _ H) as [Lg|[[e [Lg Ne]]|[b [-> Lg]]]]; rewrite Lg in E.
    + eauto.
    + destruct (split_cons _ _ _ _ _ E) as [[_ [X _]]|[l1' [_ X]]]; [now destruct (Ne a (COk v))|eauto].
    + destruct (split_cons _ _ _ _ _ E) as [[_ [X Y]]|[l1' [_ X]]]; [|eauto].
      injection X as -> X. subst l2. unfold step in H. destruct (dead s); [discriminate|].
      apply (M2 a v Q); [left; eapply get_answer; eauto|exact X].
Qed.

Lemma start_m p v0 : minv p v0 (start v0).
Proof.
  constructor.
  - intros i t. cbn. unfold fupd. destruct (Nat.eqb i 0); cbn; [intros _; now left|discriminate].
  - intros a v Q. discriminate.
  - intros l1 a v l2 E. cbn in E. destruct (split_cons _ _ _ _ _ E) as [[_ [X _]]|[l1' [_ X]]]; [discriminate|]. destruct l1'; discriminate.
Qed.

Lemma run_m p v0 : forall ls s s', ainv p nobody s -> minv p v0 s -> dead s = false -> Forall (fair nobody) ls -> run p ls s = Some s' ->
  minv p v0 s' /\ dead s' = false.
Proof.
  induction ls as [|l r IH]; cbn [run]; intros s s' A M D G H; [injection H as <-; now split|].
  inversion G; subst. destruct (step p l s) eqn:E; [|discriminate].
  apply (IH s0); auto; [eapply step_a; eauto|eapply step_m; eauto|eapply dead_false; eauto].
Qed.
