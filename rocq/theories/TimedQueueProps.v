(** C48 (timed command queue) and C67 (the engine thread wakes up for due commands). *)

From Coq Require Import List Bool Arith ZArith Lia Sorted.
From Verif Require Import TimedQueueModel.
Import ListNotations.

(** ** Specification vocabulary *)

(** Runs, from a clock that is not negative; each step is one that [ok] admits. *)
Inductive reach (ok : label -> state -> Prop) : state -> Prop :=
| reach_init t0 : (0 <= t0)%Z -> reach ok (init t0)
| reach_step s l s' : reach ok s -> ok l s -> step l s = Some s' -> reach ok s'.
Definition anything (l : label) (s : state) : Prop := True.

(** A command is waiting after the history [l] (newest event first): registered, neither run nor removed. *)
Definition waiting (l : list ev) (c : cmd) : Prop :=
  In (EvReg c) l /\ (forall now, ~ In (EvRun c now) l) /\ ~ In (EvRem c) l.

(** [c] is due before [d], or at the same time and registered earlier ([c_id] numbers the registrations). *)
Definition before (c d : cmd) : Prop :=
  (c_until c < c_until d)%Z \/ (c_until c = c_until d /\ c_id c < c_id d).

Definition is_reg (c : cmd) (v : ev) : bool := match v with EvReg d => Nat.eqb (c_id d) (c_id c) | _ => false end.
Definition is_run (c : cmd) (v : ev) : bool := match v with EvRun d _ => Nat.eqb (c_id d) (c_id c) | _ => false end.
Definition is_rem (c : cmd) (v : ev) : bool := match v with EvRem d => Nat.eqb (c_id d) (c_id c) | _ => false end.
Definition count (p : ev -> bool) (l : list ev) : nat := length (filter p l).

(** The clean-up in progress after the history [l], and the events since it began. *)
Fixpoint cleaning_of (l : list ev) : option nat :=
  match l with
  | [] => None
  | EvClean o :: _ => Some o
  | EvCleaned _ :: _ => None
  | _ :: r => cleaning_of r
  end.
Fixpoint since_clean (l : list ev) : list ev :=
  match l with
  | [] => []
  | EvClean _ :: _ => []
  | v :: r => v :: since_clean r
  end.

(** ** Proofs *)

(** What every event in the history satisfies relative to the older events. *)
Definition okev (v : ev) (l : list ev) : Prop :=
  match v with
  | EvReg c => forall d, In (EvReg d) l -> c_id d < c_id c
  | EvRun c now => (c_until c <= now)%Z /\ waiting l c /\ forall d, waiting l d -> d <> c -> before c d
  | EvRem c => waiting l c /\ cleaning_of l = Some (c_owner c)
  | EvClean _ => True
  | EvCleaned o => forall c, waiting l c -> c_owner c = o -> In (EvReg c) (since_clean l)
  | EvRet now th =>
      (forall d, waiting l d -> (now < c_until d)%Z) /\
      ((th = immediate /\ forall d, ~ waiting l d) \/
       (exists d, waiting l d /\ c_until d = th /\ forall e, waiting l e -> (th <= c_until e)%Z))
  end.
Fixpoint good (l : list ev) : Prop := match l with [] => True | v :: r => okev v r /\ good r end.

Lemma good_split l1 v l2 : good (l1 ++ v :: l2) -> okev v l2 /\ good l2.
Proof. induction l1 as [|w l1 IH]; cbn; [auto|]. intros [_ G]. auto. Qed.

Record inv (s : state) : Prop := {
  i_sorted : StronglySorted before (queue s);
  i_queue : forall c, In c (queue s) <-> waiting (log s) c;
  i_ids : forall c, In (EvReg c) (log s) -> c_id c < next s;
  i_seen : cleaning s = None -> seen s = [];
  i_clean : cleaning s = cleaning_of (log s);
  i_done : forall o c, cleaning s = Some o -> In c (seen s) -> c_owner c = o -> In (EvReg c) (since_clean (log s));
  i_at : cleaning s <> None -> match at_ s with PIdle | PRun _ _ => True | _ => False end;
  i_good : good (log s);
  i_uniq : forall c d, In (EvReg c) (log s) -> In (EvReg d) (log s) -> c_id c = c_id d -> c = d
}.

Lemma insert_in c q x : In x (insert c q) <-> x = c \/ In x q.
Proof.
  induction q as [|d r IH]; cbn; [intuition|]. destruct (Z.ltb _ _); cbn; rewrite ?IH; intuition.
Qed.

Lemma insert_sorted c q : StronglySorted before q -> (forall d, In d q -> c_id d < c_id c) -> StronglySorted before (insert c q).
Proof.
  induction q as [|d r IH]; cbn; intros S N; [repeat constructor|]. inversion S as [|? ? S1 F]; subst.
  destruct (Z.ltb_spec (c_until c) (c_until d)).
  - constructor; [exact S|]. constructor; [left; exact H|]. rewrite Forall_forall in *. intros x X. left.
    destruct (F x X) as [Y|[Y _]]; lia.
  - constructor; [apply IH; auto|]. rewrite Forall_forall in *. intros x X. apply insert_in in X.
    destruct X as [X|X]; [subst x|auto]. unfold before. specialize (N d (or_introl eq_refl)). lia.
Qed.

Lemma insert2_eq c a b a' b' : StronglySorted before (a ++ b) -> insert2 c a b = (a', b') -> a' ++ b' = insert c (a ++ b).
Proof.
  unfold insert2. revert a' b'. induction a as [|d a IH]; cbn; intros a' b' S.
  - destruct b as [|e b]; [intros E; inversion E; reflexivity|]. cbn.
    destruct (Z.ltb _ _); intros E; inversion E; subst; reflexivity.
  - inversion S as [|? ? S1 F]; subst. destruct (Z.ltb_spec (c_until c) (c_until d)) as [L|L]; cbn.
    + intros E. inversion E; subst. reflexivity.
    + destruct (existsb _ a) eqn:X.
      * intros E. inversion E; subst. cbn. f_equal. apply IH; auto.
      * destruct b as [|e b]; [intros E; inversion E; subst; cbn; f_equal; apply IH; auto|].
        destruct (Z.ltb (c_until c) (c_until e)) eqn:Y; intros E; inversion E; subst; cbn; f_equal; apply IH; auto.
Qed.

Lemma insert2_seen c a b a' b' x : insert2 c a b = (a', b') -> In x a' -> x = c \/ In x a.
Proof.
  unfold insert2. destruct (existsb _ a).
  - intros E. inversion E; subst. apply insert_in.
  - destruct b as [|e b]; [|destruct (Z.ltb _ _)]; intros E; inversion E; subst; rewrite ?in_app_iff; cbn; intuition.
Qed.

Lemma sorted_nodup q : StronglySorted before q -> NoDup q.
Proof.
  induction 1 as [|x q S IH F]; constructor; auto. intros X. rewrite Forall_forall in F.
  destruct (F x X) as [Y|[_ Y]]; lia.
Qed.

Lemma sorted_remove a c b : StronglySorted before (a ++ c :: b) -> StronglySorted before (a ++ b).
Proof.
  induction a as [|x a IH]; cbn; intros S; inversion S as [|? ? S1 F]; subst; [exact S1|].
  constructor; [auto|]. rewrite Forall_forall in *. intros y Y. apply F. rewrite in_app_iff in *. cbn. intuition.
Qed.

(** Histories: what one more event changes. *)
Lemma waiting_reg l c d : waiting l d \/ (d = c /\ (forall now, ~ In (EvRun c now) l) /\ ~ In (EvRem c) l) <-> waiting (EvReg c :: l) d.
Proof.
  unfold waiting. cbn. split.
  - intros [[A [B C]]|[E [B C]]]; [|subst d]; (split; [auto|]); (split; [intros now [X|X]; [discriminate|exact (B now X)]|intros [X|X]; [discriminate|auto]]).
  - intros [[A|A] [B C]]; [inversion A; subst; right|left]; (split; [auto|]); (split; [intros now X; apply (B now); auto|auto]).
Qed.
Lemma waiting_run l c now d : waiting (EvRun c now :: l) d <-> waiting l d /\ d <> c.
Proof.
  unfold waiting. cbn. split.
  - intros [[A|A] [B C]]; [discriminate|]. split; [split; [auto|split; [intros n X; apply (B n); auto|auto]]|].
    intros E. subst. apply (B now). auto.
  - intros [[A [B C]] N]. split; [auto|]. split; [intros n [X|X]; [inversion X; congruence|exact (B n X)]|intros [X|X]; [discriminate|auto]].
Qed.
Lemma waiting_rem l c d : waiting (EvRem c :: l) d <-> waiting l d /\ d <> c.
Proof.
  unfold waiting. cbn. split.
  - intros [[A|A] [B C]]; [discriminate|]. split; [split; [auto|split; [intros n X; apply (B n); auto|auto]]|].
    intros E. subst. apply C. auto.
  - intros [[A [B C]] N]. split; [auto|]. split; [intros n [X|X]; [discriminate|exact (B n X)]|intros [X|X]; [inversion X; congruence|auto]].
Qed.
Lemma waiting_other l v d : (match v with EvReg _ | EvRun _ _ | EvRem _ => False | _ => True end) -> waiting (v :: l) d <-> waiting l d.
Proof.
  intros V. unfold waiting. cbn. destruct v; try contradiction;
  (split; [intros [[A|A] [B C]]; [discriminate|]; split; [auto|split; [intros n X; apply (B n); auto|auto]]
          |intros [A [B C]]; split; [auto|split; [intros n [X|X]; [discriminate|exact (B n X)]|intros [X|X]; [discriminate|auto]]]]).
Qed.

Lemma good_reg l c : good l -> (forall now, In (EvRun c now) l -> In (EvReg c) l) /\ (In (EvRem c) l -> In (EvReg c) l).
Proof.
  induction l as [|v l IH]; [split; [intros now []|intros []]|]. intros [O G]. destruct (IH G) as [A B].
  split; [intros now [X|X]|intros [X|X]]; try (right; eauto; fail); subst v; cbn in O; right; apply O.
Qed.

Lemma inv_init t0 : inv (init t0).
Proof.
  constructor; cbn; try discriminate; try tauto; [constructor|]. intros c. split; [tauto|intros [X _]; exact X].
Qed.

Lemma inv_same s s' : inv s -> seen s' = seen s -> rest s' = rest s -> cleaning s' = cleaning s -> log s' = log s -> next s' = next s ->
  (cleaning s' <> None -> match at_ s' with PIdle | PRun _ _ => True | _ => False end) -> inv s'.
Proof.
  intros [A B C D E F G H U] S R K L N P.
  constructor; unfold queue in *; rewrite ?S, ?R, ?K, ?L, ?N; auto.
  intros X. apply P. rewrite K. exact X.
Qed.

Lemma inv_step l s s' : inv s -> step l s = Some s' -> inv s'.
Proof.
  intros I St. pose proof I as [A B C D E F G H U]. destruct l; cbn [step] in St.
  - (* register *)
    inversion St; subst; clear St. set (c := mkC (next s) u o).
    assert (Fr : ~ In (EvReg c) (log s)) by (intros X; apply C in X; cbn in X; lia).
    assert (Nw : (forall now, ~ In (EvRun c now) (log s)) /\ ~ In (EvRem c) (log s)).
    { destruct (good_reg (log s) c H) as [X Y]. split; [intros n Z; apply Fr; eauto|intros Z; apply Fr; auto]. }
    assert (Q : queue (register u o s) = insert c (queue s)).
    { unfold register, queue. fold c. destruct (cleaning s) eqn:K; cbn.
      - destruct (insert2 c (seen s) (rest s)) as [a b] eqn:Z. cbn. exact (insert2_eq c (seen s) (rest s) a b A Z).
      - rewrite (D eq_refl). reflexivity. }
    assert (L : log (register u o s) = EvReg c :: log s).
    { unfold register. fold c. cbn. destruct (cleaning s); [destruct (insert2 c (seen s) (rest s))|]; reflexivity. }
    assert (K : cleaning (register u o s) = cleaning s).
    { unfold register. fold c. cbn. destruct (cleaning s) eqn:X; [destruct (insert2 c (seen s) (rest s))|]; cbn; exact X. }
    assert (Nx : next (register u o s) = S (next s)).
    { unfold register. fold c. cbn. destruct (cleaning s); [destruct (insert2 c (seen s) (rest s))|]; reflexivity. }
    assert (Pa : at_ (register u o s) = at_ s).
    { unfold register. fold c. cbn. destruct (cleaning s); [destruct (insert2 c (seen s) (rest s))|]; reflexivity. }
    constructor.
    + rewrite Q. apply insert_sorted; [exact A|]. intros d X. apply B in X. destruct X as [X _]. cbn. exact (C d X).
    + intros d. rewrite Q, L, insert_in, B. rewrite <- waiting_reg. intuition.
    + intros d. rewrite L, Nx. intros [X|X]; [inversion X; subst; cbn; lia|apply C in X; lia].
    + rewrite K. intros X. unfold register. fold c. rewrite X. cbn. exact (D X).
    + rewrite K, L. exact E.
    + intros o' d. rewrite K, L. intros X Y Z. cbn [since_clean]. 
      assert (W : d = c \/ In d (seen s)).
      { unfold register in Y. fold c in Y. rewrite X in Y. cbn in Y. destruct (insert2 c (seen s) (rest s)) as [a b] eqn:Y2.
        cbn in Y. exact (insert2_seen _ _ _ _ _ _ Y2 Y). }
      destruct W as [W|W]; [left; subst; reflexivity|right; exact (F o' d X W Z)].
    + rewrite K, Pa. exact G.
    + rewrite L. cbn. split; [exact C|exact H].
    + rewrite L. intros x y [X|X] [Y|Y] Z; try (inversion X; subst x); try (inversion Y; subst y); auto.
      * apply C in Y. cbn in Z. lia.
      * apply C in X. cbn in Z. lia.
  - destruct (writers s); [discriminate|]. inversion St; subst. apply (inv_same s); auto.
  - (* clean begins *)
    assert (X : cleaning s = None /\ (match at_ s with PIdle | PRun _ _ => True | _ => False end) /\ s' = say (EvClean o) (set_cleaning (Some o) s)).
    { destruct (at_ s); try discriminate; destruct (cleaning s); try discriminate; inversion St; auto. }
    destruct X as [X [Y Z]]. subst s'. constructor.
    + exact A.
    + intros c. change (In c (queue s) <-> waiting (EvClean o :: log s) c). rewrite waiting_other by exact Logic.I. apply B.
    + intros c [W|W]; [discriminate|exact (C c W)].
    + intros W. discriminate W.
    + reflexivity.
    + intros o' c _ W. cbn in W. rewrite (D X) in W. destruct W.
    + intros _. exact Y.
    + cbn. auto.
    + intros c d [W|W] [W2|W2]; try discriminate. apply U; auto.
  - (* clean step *)
    destruct (cleaning s) as [o|] eqn:K; [|discriminate]. inversion St; subst; clear St. unfold clean_step.
    destruct (rest s) as [|c r] eqn:R.
    + constructor.
      * cbn. unfold queue in A. rewrite R, app_nil_r in A. exact A.
      * intros c. change (In c ([] ++ seen s) <-> waiting (EvCleaned o :: log s) c). rewrite waiting_other by exact Logic.I.
        rewrite <- B. unfold queue. rewrite R, app_nil_r. reflexivity.
      * intros c [W|W]; [discriminate|exact (C c W)].
      * reflexivity.
      * reflexivity.
      * intros o' c W. discriminate W.
      * intros W. cbn in W. congruence.
      * cbn. split; [|exact H]. intros c W Ow. apply B in W. unfold queue in W. rewrite R, app_nil_r in W. exact (F o c eq_refl W Ow).
      * intros x y [W|W] [W2|W2]; try discriminate. apply U; auto.
    + destruct (Nat.eqb_spec (c_owner c) o) as [Ow|Ow].
      * assert (Wc : waiting (log s) c) by (apply B; unfold queue; rewrite R; apply in_or_app; right; left; reflexivity).
        pose proof (sorted_nodup _ A) as Nd. unfold queue in Nd. rewrite R in Nd. apply NoDup_remove in Nd. destruct Nd as [_ Nd].
        constructor.
        -- change (StronglySorted before (seen s ++ r)). unfold queue in A. rewrite R in A. exact (sorted_remove _ _ _ A).
        -- intros d. change (In d (seen s ++ r) <-> waiting (EvRem c :: log s) d). rewrite waiting_rem, <- B. unfold queue. rewrite R.
           rewrite !in_app_iff in *. cbn. split; [intros X; split; [intuition|intros Y; subst; contradiction]|intros [[X|[X|X]] Y]; auto; congruence].
        -- intros d [W|W]; [discriminate|exact (C d W)].
        -- cbn. intros W. congruence.
        -- cbn. rewrite K. exact E.
        -- intros o' d W X Y. cbn [say set_queue log since_clean]. right. cbn in W, X. rewrite K in W. exact (F o' d W X Y).
        -- cbn. rewrite K. exact G.
        -- cbn. split; [split; [exact Wc|rewrite <- E; congruence]|exact H].
        -- intros x y [W|W] [W2|W2]; try discriminate. apply U; auto.
      * assert (Q : queue (set_queue (seen s ++ [c]) r s) = queue s) by (unfold queue; rewrite R; cbn; rewrite <- app_assoc; reflexivity).
        constructor; rewrite ?Q; auto.
        -- cbn. intros W. congruence.
        -- cbn. rewrite K. exact E.
        -- cbn. intros o' d W X Y. rewrite K in W. apply in_app_or in X. destruct X as [X|[X|[]]]; [exact (F o' d W X Y)|subst; congruence].
        -- cbn. rewrite K. exact G.
  - destruct (at_ s) eqn:P; try discriminate. destruct (cleaning s) eqn:K; try discriminate. inversion St; subst.
    apply (inv_same s); auto. cbn. congruence.
  - (* loop *)
    destruct (at_ s) as [|now|now c|r|d] eqn:P; try discriminate. inversion St; subst; clear St.
    assert (K : cleaning s = None) by (destruct (cleaning s); [exfalso; apply G; discriminate|reflexivity]).
    assert (Sn : seen s = []) by (apply D; exact K).
    assert (Q : queue s = rest s) by (unfold queue; rewrite Sn; reflexivity).
    unfold loop. destruct (rest s) as [|c r] eqn:R.
    + constructor.
      * exact A.
      * intros c. change (In c (queue s) <-> waiting (EvRet now immediate :: log s) c). rewrite waiting_other by exact Logic.I. apply B.
      * intros c [W|W]; [discriminate|exact (C c W)].
      * exact D.
      * exact E.
      * intros o c W. cbn in W. congruence.
      * cbn. congruence.
      * assert (N : forall d, ~ waiting (log s) d) by (intros d W; apply B in W; rewrite Q in W; destruct W).
        cbn. split; [split; [intros d W; destruct (N d W)|left; auto]|exact H].
      * intros x y [W|W] [W2|W2]; try discriminate. apply U; auto.
    + rewrite Q in A, B. inversion A as [|? ? A1 A2]; subst. rewrite Forall_forall in A2.
      destruct (Z.ltb_spec now (c_until c)) as [Lt|Le].
      * constructor.
        -- unfold queue. cbn. rewrite Sn, R. exact A.
        -- intros d. unfold queue. cbn [say set_at seen rest log]. rewrite Sn, R. rewrite waiting_other by exact Logic.I. apply B.
        -- intros d [W|W]; [discriminate|exact (C d W)].
        -- exact D.
        -- exact E.
        -- intros o d W. cbn in W. congruence.
        -- cbn. congruence.
        -- cbn. split; [split|exact H].
           ++ intros d W. apply B in W. destruct W as [W|W]; [subst; exact Lt|]. destruct (A2 d W) as [Z|[Z _]]; lia.
           ++ right. exists c. split; [apply B; left; reflexivity|]. split; [reflexivity|].
              intros e W. apply B in W. destruct W as [W|W]; [subst; lia|]. destruct (A2 e W) as [Z|[Z _]]; lia.
        -- intros x y [W|W] [W2|W2]; try discriminate. apply U; auto.
      * constructor.
        -- unfold queue. cbn. rewrite Sn. exact A1.
        -- intros d. unfold queue. cbn [say set_at set_queue seen rest log]. rewrite Sn. cbn [app]. rewrite waiting_run, <- B. cbn [In].
           split; [intros X; split; [auto|intros Y; subst; destruct (A2 c X) as [Z|[_ Z]]; lia]|intros [[X|X] Y]; [congruence|exact X]].
        -- intros d [W|W]; [discriminate|exact (C d W)].
        -- exact D.
        -- exact E.
        -- intros o d W. cbn in W. congruence.
        -- cbn. congruence.
        -- cbn. split; [split; [exact Le|split]|exact H].
           ++ apply B. left. reflexivity.
           ++ intros d W N. apply B in W. destruct W as [W|W]; [congruence|exact (A2 d W)].
        -- intros x y [W|W] [W2|W2]; try discriminate. apply U; auto.
  - destruct (at_ s) eqn:P; try discriminate. destruct (cleaning s) eqn:K; try discriminate. inversion St; subst.
    apply (inv_same s); auto. cbn. congruence.
  - destruct (at_ s) eqn:P; try discriminate. inversion St; subst. apply (inv_same s); auto. 
  - destruct (at_ s) eqn:P; try discriminate. destruct (pipe s); try discriminate. inversion St; subst. apply (inv_same s); auto. cbn. auto.
  - destruct (at_ s) as [| | | |[d|]] eqn:P; try discriminate. destruct (Z.leb d (clock s)); try discriminate. inversion St; subst. apply (inv_same s); auto. cbn. auto.
  - destruct (at_ s) eqn:P; try discriminate. inversion St; subst. apply (inv_same s); auto. cbn. auto.
  - destruct (Z.leb 0 n); try discriminate. inversion St; subst. apply (inv_same s); auto.
Qed.

Lemma reach_inv ok s : reach ok s -> inv s.
Proof. induction 1; [apply inv_init|eapply inv_step; eassumption]. Qed.

(** ** C48 *)

(** A command is taken for execution only when it is due, only while it is waiting, and before every other waiting
    command that is due later, or due at the same time and registered later. ([l2]: the history before.) *)
Theorem C48_order : forall s c now l1 l2,
  reach anything s -> log s = l1 ++ EvRun c now :: l2 ->
  (c_until c <= now)%Z /\ waiting l2 c /\ forall d, waiting l2 d -> d <> c -> before c d.
Proof.
  intros s c now l1 l2 R E. pose proof (i_good _ (reach_inv _ _ R)) as G. rewrite E in G. apply good_split in G. exact (proj1 G).
Qed.

Lemma count_zero p l : (forall v, In v l -> p v = false) -> count p l = 0.
Proof.
  unfold count. induction l as [|v l IH]; intros N; [reflexivity|]. cbn. rewrite (N v (or_introl eq_refl)). apply IH. intros w W. apply N. right. exact W.
Qed.

Lemma once l c : good l -> (forall x y, In (EvReg x) l -> In (EvReg y) l -> c_id x = c_id y -> x = y) -> In (EvReg c) l ->
  count (is_run c) l + count (is_rem c) l <= 1 /\
  (count (is_run c) l + count (is_rem c) l = 0 <-> waiting l c).
Proof.
  induction l as [|v l IH]; [intros _ _ []|]. intros [O G] U I.
  assert (U' : forall x y, In (EvReg x) l -> In (EvReg y) l -> c_id x = c_id y -> x = y) by (intros; apply U; cbn; auto).
  destruct v as [d|d now|d|o|o|a b]; cbn in O.
  - destruct I as [I|I].
    + inversion I; subst d. clear I.
      assert (Z1 : forall now e, In (EvRun e now) l -> c_id e <> c_id c).
      { intros now e X Y. destruct (good_reg l e G) as [P _]. specialize (O e (P _ X)). lia. }
      assert (Z2 : forall e, In (EvRem e) l -> c_id e <> c_id c).
      { intros e X Y. destruct (good_reg l e G) as [_ P]. specialize (O e (P X)). lia. }
      assert (N1 : count (is_run c) (EvReg c :: l) = 0).
      { apply count_zero. intros v [V|V]; [subst; reflexivity|]. destruct v; try reflexivity. cbn. apply Nat.eqb_neq. eauto. }
      assert (N2 : count (is_rem c) (EvReg c :: l) = 0).
      { apply count_zero. intros v [V|V]; [subst; reflexivity|]. destruct v; try reflexivity. cbn. apply Nat.eqb_neq. eauto. }
      rewrite N1, N2. split; [lia|]. split; [|reflexivity]. intros _. apply waiting_reg. right. split; [reflexivity|].
      split; [intros n X; exact (Z1 n c X eq_refl)|intros X; exact (Z2 c X eq_refl)].
    + destruct (IH G U' I) as [P Q]. cbn. fold (count (is_run c) l) (count (is_rem c) l). split; [exact P|]. rewrite Q, <- waiting_reg.
      split; [auto|]. intros [W|[W _]]; [exact W|]. subst d. specialize (O c I). lia.
  - destruct I as [I|I]; [discriminate|]. destruct (IH G U' I) as [P Q]. destruct O as [_ [W _]]. cbn [count filter is_run is_rem].
    rewrite waiting_run. destruct (Nat.eqb_spec (c_id d) (c_id c)) as [X|X].
    + assert (d = c) by (apply U'; [apply W|exact I|exact X]). subst d. apply Q in W. unfold count in *. cbn. rewrite Nat.eqb_refl. cbn. split; [lia|].
      split; [lia|intros [_ Y]; congruence].
    + unfold count in *. cbn. rewrite (proj2 (Nat.eqb_neq _ _) X). split; [exact P|]. rewrite Q. split; [intros Y; split; [exact Y|congruence]|intros [Y _]; exact Y].
  - destruct I as [I|I]; [discriminate|]. destruct (IH G U' I) as [P Q]. destruct O as [W _].
    rewrite waiting_rem. destruct (Nat.eqb_spec (c_id d) (c_id c)) as [X|X].
    + assert (d = c) by (apply U'; [apply W|exact I|exact X]). subst d. apply Q in W. unfold count in *. cbn. rewrite Nat.eqb_refl. cbn. split; [lia|].
      split; [lia|intros [_ Y]; congruence].
    + unfold count in *. cbn. rewrite (proj2 (Nat.eqb_neq _ _) X). split; [exact P|]. rewrite Q. split; [intros Y; split; [exact Y|congruence]|intros [Y _]; exact Y].
  - destruct I as [I|I]; [discriminate|]. destruct (IH G U' I) as [P Q]. rewrite waiting_other by exact Logic.I. exact (conj P Q).
  - destruct I as [I|I]; [discriminate|]. destruct (IH G U' I) as [P Q]. rewrite waiting_other by exact Logic.I. exact (conj P Q).
  - destruct I as [I|I]; [discriminate|]. destruct (IH G U' I) as [P Q]. rewrite waiting_other by exact Logic.I. exact (conj P Q).
Qed.

(** Every registered command is in exactly one place: still queued, executed once, or removed once. *)
Theorem C48_exactly_once : forall s c,
  reach anything s -> In (EvReg c) (log s) ->
  (In c (queue s) /\ count (is_run c) (log s) = 0 /\ count (is_rem c) (log s) = 0) \/
  (~ In c (queue s) /\ count (is_run c) (log s) + count (is_rem c) (log s) = 1).
Proof.
  intros s c R I. pose proof (reach_inv _ _ R) as V. destruct (once (log s) c (i_good _ V) (i_uniq _ V) I) as [P Q].
  rewrite <- (i_queue _ V) in Q. destruct (Nat.eq_dec (count (is_run c) (log s) + count (is_rem c) (log s)) 0) as [Z|Z].
  - left. split; [apply Q; exact Z|lia].
  - right. split; [intros X; apply Q in X; lia|lia].
Qed.

(** Nothing else is executed or removed. *)
Theorem C48_only_registered : forall s c now,
  reach anything s -> In (EvRun c now) (log s) \/ In (EvRem c) (log s) -> In (EvReg c) (log s).
Proof.
  intros s c now R X. destruct (good_reg (log s) c (i_good _ (reach_inv _ _ R))) as [A B]. destruct X; eauto.
Qed.

(** Cleaning up an owner removes only that owner's commands ... *)
Theorem C48_cleanup_only_own : forall s c l1 l2,
  reach anything s -> log s = l1 ++ EvRem c :: l2 -> waiting l2 c /\ cleaning_of l2 = Some (c_owner c).
Proof.
  intros s c l1 l2 R E. pose proof (i_good _ (reach_inv _ _ R)) as G. rewrite E in G. apply good_split in G. exact (proj1 G).
Qed.

(** ... and all that were registered before it began. *)
Theorem C48_cleanup_all_own : forall s o c l1 l2,
  reach anything s -> log s = l1 ++ EvCleaned o :: l2 -> c_owner c = o -> waiting l2 c -> In (EvReg c) (since_clean l2).
Proof.
  intros s o c l1 l2 R E O W. pose proof (i_good _ (reach_inv _ _ R)) as G. rewrite E in G. apply good_split in G. exact (proj1 G c W O).
Qed.

(** Processing the queue leaves no due command, and reports when the next one is due. *)
Theorem C48_result : forall s now r l1 l2,
  reach anything s -> log s = l1 ++ EvRet now r :: l2 ->
  (forall d, waiting l2 d -> (now < c_until d)%Z) /\
  ((r = immediate /\ forall d, ~ waiting l2 d) \/
   (exists d, waiting l2 d /\ c_until d = r /\ forall e, waiting l2 e -> (r <= c_until e)%Z)).
Proof.
  intros s now r l1 l2 R E. pose proof (i_good _ (reach_inv _ _ R)) as G. rewrite E in G. apply good_split in G. exact (proj1 G).
Qed.

(** ** C67: the engine thread wakes up for due commands *)

(** When the timeout is computed, the next due time lies less than 2 ms in the past. *)
Definition timely (l : label) (s : state) : Prop :=
  match l, at_ s with
  | LPoll, PTimeout r => r <> immediate -> (clock s < r + 2 * ms)%Z
  | _, _ => True
  end.

Record wake (s : state) : Prop := {
  w_clock : (0 <= clock s)%Z;
  w_now : match at_ s with PLoop now | PRun now _ => (0 <= now)%Z | _ => True end;
  w_timeout : forall r, at_ s = PTimeout r -> pipe s = 0 -> writers s = 0 ->
     match queue s with [] => True | c :: _ => r <> immediate /\ (r <= c_until c)%Z end;
  w_sleep : forall d, at_ s = PSleep d -> pipe s = 0 -> writers s = 0 ->
     match queue s with [] => True | c :: _ => exists t, d = Some t /\ (t <= c_until c + 2 * ms)%Z end
}.

Lemma deadline_ok r now : r <> immediate -> (now < r + 2 * ms)%Z ->
  exists t, poll_deadline (poll_timeout r now) now = Some t /\ (t <= r + 2 * ms)%Z.
Proof.
  intros N L. unfold poll_timeout, poll_deadline. rewrite (proj2 (Z.eqb_neq _ _) N).
  assert (M : (ms = 1000000)%Z) by reflexivity. set (x := (r - now)%Z).
  assert (D : ((0 <= x -> 0 <= Z.quot x ms /\ Z.quot x ms * ms <= x) /\ (x <= 0 -> -1 <= Z.quot x ms <= 0 /\ (Z.quot x ms = 0 -> - ms < x)))%Z).
  { split; intros X.
    - rewrite Z.quot_div_nonneg by lia. split; [apply Z.div_pos; lia|]. rewrite Z.mul_comm. apply Z.mul_div_le. lia.
    - assert (Y : Z.quot x ms = (- (Z.quot (- x) ms))%Z) by (rewrite <- Z.quot_opp_l by lia; f_equal; lia).
      rewrite Y, Z.quot_div_nonneg by lia. 
      assert ((-x) / ms < 2)%Z by (apply Z.div_lt_upper_bound; unfold x in *; lia).
      assert (0 <= (-x) / ms)%Z by (apply Z.div_pos; lia). split; [lia|]. intros Z0.
      assert (Z1 : ((-x) / ms = 0)%Z) by lia. pose proof (Z.mul_succ_div_gt (-x) ms ltac:(lia)) as G. rewrite Z1 in G. lia. }
  destruct D as [D1 D2]. remember (Z.quot x ms) as q eqn:Eq. clear Eq.
  destruct (Z.leb_spec int32_max q) as [B|B].
  - assert (X : (0 <= x)%Z) by (destruct (Z.le_ge_cases 0 x); auto; unfold int32_max in B; lia).
    destruct (Z.ltb_spec int32_max 0); [unfold int32_max in *; lia|]. eexists; split; [reflexivity|]. destruct (D1 X) as [_ Y]. unfold x in *.
    assert (int32_max * ms <= q * ms)%Z by (apply Z.mul_le_mono_nonneg_r; lia). lia.
  - destruct (Z.ltb_spec (q + 1) 0) as [Y|Y]; [exfalso; destruct (Z.le_ge_cases 0 x) as [X|X]; [apply D1 in X|apply D2 in X]; lia|].
    eexists; split; [reflexivity|]. destruct (Z.le_ge_cases 0 x) as [X|X]; unfold x in *.
    + apply D1 in X. lia.
    + apply D2 in X. assert (q = -1 \/ q = 0)%Z as [Q|Q] by lia; subst q; lia.
Qed.


Lemma wake_same s s' : wake s -> (0 <= clock s')%Z -> at_ s' = at_ s -> queue s' = queue s -> pipe s' = pipe s -> writers s' = writers s -> wake s'.
Proof.
  intros [A B C D] K P Q X Y. constructor; rewrite ?P, ?Q, ?X, ?Y; auto.
Qed.

Lemma wake_idle s' p : (0 <= clock s')%Z -> at_ s' = p ->
  (match p with PIdle => True | PLoop n | PRun n _ => (0 <= n)%Z | _ => False end) -> wake s'.
Proof.
  intros K P N. constructor; rewrite ?P; auto; [destruct p; tauto| |]; intros r E; rewrite E in N; destruct N.
Qed.

Lemma wake_step l s s' : inv s -> wake s -> timely l s -> step l s = Some s' -> wake s'.
Proof.
  intros I W T St. pose proof W as [A B C D]. destruct l; cbn [step] in St.
  - inversion St; subst; clear St.
    assert (X : at_ (register u o s) = at_ s /\ clock (register u o s) = clock s /\ writers (register u o s) = S (writers s)).
    { unfold register. cbn. destruct (cleaning s); [destruct (insert2 _ (seen s) (rest s))|]; auto. }
    destruct X as [X [Y Z]]. constructor; rewrite ?X, ?Y, ?Z; auto; intros; discriminate.
  - destruct (writers s) eqn:K; [discriminate|]. inversion St; subst. constructor; cbn; auto; intros; discriminate.
  - assert (X : s' = say (EvClean o) (set_cleaning (Some o) s)).
    { destruct (at_ s); try discriminate; destruct (cleaning s); try discriminate; inversion St; auto. }
    subst s'. apply (wake_same s); auto.
  - destruct (cleaning s) as [o|] eqn:K; [|discriminate]. inversion St; subst; clear St.
    pose proof (i_at _ I) as P. rewrite K in P. specialize (P ltac:(discriminate)).
    assert (X : at_ (clean_step o s) = at_ s /\ clock (clean_step o s) = clock s).
    { unfold clean_step. destruct (rest s); [|destruct (Nat.eqb _ _)]; auto. }
    destruct X as [X Y]. apply (wake_idle _ (at_ s)); [rewrite Y; exact A|exact X|]. destruct (at_ s); try contradiction; auto.
  - destruct (at_ s) eqn:P; try discriminate. destruct (cleaning s); try discriminate. inversion St; subst. apply (wake_idle _ (PLoop (clock s))); auto.
  - destruct (at_ s) as [|now|now c|r|d] eqn:P; try discriminate. inversion St; subst; clear St.
    assert (K : cleaning s = None) by (pose proof (i_at _ I) as G; rewrite P in G; destruct (cleaning s); [exfalso; apply G; discriminate|reflexivity]).
    assert (Sn : seen s = []) by (exact (i_seen _ I K)).
    unfold loop. destruct (rest s) as [|c r] eqn:R.
    + constructor; cbn; auto; [intros r _ _ _; unfold queue; cbn; rewrite Sn, R; exact Logic.I|]. intros; discriminate.
    + destruct (Z.ltb_spec now (c_until c)) as [L|L].
      * constructor; cbn; auto; [|intros; discriminate]. intros x X _ _. inversion X; subst. unfold queue. cbn. rewrite Sn, R. cbn.
        unfold immediate. lia.
      * apply (wake_idle _ (PRun now c)); auto.
  - destruct (at_ s) as [|now|now c|r|d] eqn:P; try discriminate. destruct (cleaning s); try discriminate. inversion St; subst. apply (wake_idle _ (PLoop now)); auto.
  - destruct (at_ s) as [|now|now c|r|d] eqn:P; try discriminate. inversion St; subst; clear St. cbn in T. rewrite P in T.
    constructor; cbn; auto; [intros; discriminate|]. intros d X Y Z. inversion X; subst. specialize (C r eq_refl Y Z).
    unfold queue in C. cbn [queue set_at seen rest]. change (clock (set_at _ s)) with (clock s) in *.
    unfold queue. cbn [set_at seen rest]. destruct (seen s ++ rest s) as [|c q]; [exact Logic.I|]. destruct C as [C1 C2].
    destruct (deadline_ok r (clock s) C1 (T C1)) as [t [E L]]. exists t. split; [exact E|unfold ms in L; lia].
  - destruct (at_ s) eqn:P; try discriminate. destruct (pipe s); try discriminate. inversion St; subst. apply (wake_idle _ PIdle); auto.
  - destruct (at_ s) as [| | | |[d|]] eqn:P; try discriminate. destruct (Z.leb d (clock s)); try discriminate. inversion St; subst. apply (wake_idle _ PIdle); auto.
  - destruct (at_ s) eqn:P; try discriminate. inversion St; subst. apply (wake_idle _ PIdle); auto.
  - destruct (Z.leb_spec 0 n); try discriminate. inversion St; subst. apply (wake_same s); auto. cbn. lia.
Qed.

(** While the engine thread sleeps, nobody is about to wake it and commands are queued, its sleep is limited, and ends at
    most 2 ms after each of them is due. Partial: only if the next command was at most 2 ms overdue whenever the timeout
    was computed. *)
Theorem C67_wakes_up_partial : forall s d c,
  reach timely s -> at_ s = PSleep d -> pipe s = 0 -> writers s = 0 -> In c (queue s) ->
  exists t, d = Some t /\ (t <= c_until c + 2 * ms)%Z.
Proof.
  intros s d c R P X Y Q. pose proof (reach_inv _ _ R) as V.
  assert (W : wake s).
  { clear - R. induction R as [t0 H|s l s' R IH O St]; [constructor; cbn; auto; intros; discriminate|].
    exact (wake_step l s s' (reach_inv _ _ R) IH O St). }
  pose proof (w_sleep _ W d P X Y) as Z. pose proof (i_sorted _ V) as S. destruct (queue s) as [|h q]; [destruct Q|].
  destruct Z as [t [E L]]. exists t. split; [exact E|]. destruct Q as [Q|Q]; [subst; exact L|].
  inversion S as [|? ? _ F]; subst. rewrite Forall_forall in F. destruct (F c Q) as [B|[B _]]; lia.
Qed.

(** The engine thread's own steps: waking up by time-out, starting ProcessQueue, one turn of its loop, the return of a
    callback. *)
Definition engine_step (l : label) : Prop :=
  match l with LTimerWake | LProcess | LLoop | LReturn => True | _ => False end.

Fixpoint exec (ls : list label) (s : state) : option state :=
  match ls with [] => Some s | l :: r => match step l s with Some s' => exec r s' | None => None end end.

Lemma loop_runs now : forall pre c after s, at_ s = PLoop now -> cleaning s = None ->
  rest s = pre ++ c :: after -> (forall d, In d (pre ++ [c]) -> (c_until d <= now)%Z) ->
  exists ls s', Forall engine_step ls /\ exec ls s = Some s' /\ In (EvRun c now) (log s').
Proof.
  intros pre. induction pre as [|d b IH]; intros c after s P K Q T.
  - exists [LLoop]. cbn [exec step]. rewrite P. eexists. split; [repeat constructor|]. split; [reflexivity|].
    unfold loop. rewrite Q. cbn [app]. destruct (Z.ltb_spec now (c_until c)) as [L|L].
    + specialize (T c (or_introl eq_refl)). lia.
    + left. reflexivity.
  - set (s1 := set_at (PRun now d) (say (EvRun d now) (set_queue (seen s) (b ++ c :: after) s))).
    assert (E1 : step LLoop s = Some s1).
    { cbn [step]. rewrite P. unfold loop. rewrite Q. cbn [app]. destruct (Z.ltb_spec now (c_until d)) as [L|L]; [|reflexivity].
      specialize (T d (or_introl eq_refl)). lia. }
    assert (E2 : step LReturn s1 = Some (set_at (PLoop now) s1)).
    { cbn [step]. change (cleaning s1) with (cleaning s). rewrite K. reflexivity. }
    destruct (IH c after (set_at (PLoop now) s1) eq_refl K eq_refl) as [ls [s' [F [X Y]]]].
    { intros x X. apply T. right. exact X. }
    exists (LLoop :: LReturn :: ls), s'. split; [constructor; [exact Logic.I|constructor; [exact Logic.I|exact F]]|]. split; [|exact Y].
    cbn [exec]. rewrite E1. cbn [exec]. rewrite E2. exact X.
Qed.

(** Once 2 ms have passed since a command was due, the engine thread that slept executes it by its own steps alone: no
    other thread, registration or input is needed. Partial: as above, and provided callbacks of commands that are due
    earlier return. *)
Theorem C67_due_command_runs_partial : forall s d c,
  reach timely s -> at_ s = PSleep d -> pipe s = 0 -> writers s = 0 -> In c (queue s) -> (c_until c + 2 * ms <= clock s)%Z ->
  exists ls s', Forall engine_step ls /\ exec ls s = Some s' /\ In (EvRun c (clock s)) (log s').
Proof.
  intros s d c R P X Y Q T. pose proof (reach_inv _ _ R) as V.
  destruct (C67_wakes_up_partial s d c R P X Y Q) as [t [-> L]].
  assert (K : cleaning s = None).
  { pose proof (i_at _ V) as G. rewrite P in G. destruct (cleaning s); [exfalso; apply G; discriminate|reflexivity]. }
  pose proof (i_seen _ V K) as Sn. pose proof (i_sorted _ V) as So. unfold queue in Q, So. rewrite Sn in Q, So. cbn [app] in Q, So.
  destruct (in_split _ _ Q) as [b [a E]].
  assert (W1 : step LTimerWake s = Some (set_at PIdle s)).
  { cbn [step]. rewrite P. destruct (Z.leb_spec t (clock s)); [reflexivity|lia]. }
  assert (W2 : step LProcess (set_at PIdle s) = Some (set_at (PLoop (clock s)) (set_at PIdle s))).
  { cbn [step]. change (cleaning (set_at PIdle s)) with (cleaning s). rewrite K. reflexivity. }
  destruct (loop_runs (clock s) b c a (set_at (PLoop (clock s)) (set_at PIdle s)) eq_refl K E) as [ls [s' [F [G H]]]].
  { assert (M : (ms = 1000000)%Z) by reflexivity. intros x Hx. apply in_app_or in Hx. destruct Hx as [Hx|[Hx|[]]]; [|subst; lia].
    assert (B : (c_until x <= c_until c)%Z).
    { clear - So E Hx. rewrite E in So. clear E. induction b as [|y b IH]; [destruct Hx|]. cbn in So. inversion So as [|? ? S1 F1]; subst.
      destruct Hx as [Hx|Hx]; [|exact (IH S1 Hx)]. subst y. rewrite Forall_forall in F1.
      destruct (F1 c) as [Z|[Z _]]; [apply in_or_app; right; left; reflexivity| |]; lia. }
    lia. }
  exists (LTimerWake :: LProcess :: ls), s'. split; [constructor; [exact Logic.I|constructor; [exact Logic.I|exact F]]|]. split; [|exact H].
  cbn [exec]. rewrite W1. cbn [exec]. rewrite W2. exact G.
Qed.

(** ** Findings *)

Lemma exec_reach ls : forall s s', reach anything s -> exec ls s = Some s' -> reach anything s'.
Proof.
  induction ls as [|l r IH]; cbn; intros s s' R E; [inversion E; subst; exact R|].
  destruct (step l s) as [s1|] eqn:St; [|discriminate]. exact (IH s1 s' (reach_step _ s l s1 R Logic.I St) E).
Qed.
Lemma exec_run ls s : exec ls (init 0) = Some s -> reach anything s.
Proof. apply exec_reach. constructor. lia. Qed.

(** C67. A command due in 10 ms is queued. A command that runs for 100 ms is executed: when it ends, the timeout of the
    next poll() comes out negative, and the engine thread sleeps without limit although the queued command is overdue.
    Only a new registration or input on another descriptor would wake it. *)
Theorem C67_overdue_refuted : exists s c,
  reach anything s /\ at_ s = PSleep None /\ pipe s = 0 /\ writers s = 0 /\ queue s = [c] /\ (c_until c + 90 * ms <= clock s)%Z /\
  step LTimerWake s = None /\ step LPipeWake s = None.
Proof.
  enough (X : exists s, reach anything s /\ at_ s = PSleep None /\ pipe s = 0 /\ writers s = 0 /\ queue s = [mkC 0 (10 * ms) 1] /\
    (10 * ms + 90 * ms <= clock s)%Z /\ step LTimerWake s = None /\ step LPipeWake s = None).
  { destruct X as [s X]. exists s, (mkC 0 (10 * ms) 1). exact X. }
  eexists. split; [eapply (exec_run [LProcess; LLoop; LPoll; LReg (10 * ms) 1; LPipe; LPipeWake;
     LProcess; LLoop; LPoll; LReg 0 2; LPipe; LPipeWake;
     LProcess; LLoop; LTick (100 * ms); LReturn; LLoop; LPoll]); vm_compute; reflexivity|].
  vm_compute. intuition discriminate.
Qed.

(** C48. Cleaning up the null owner removes the commands registered without an owner, which the interface documentation
    (timed_command_queue.h 71-74) excludes. The engines do not pass a null owner on (unix_domain_engine.cpp 166-169). *)
Theorem C48_null_owner_refuted : exists s c, reach anything s /\ c_owner c = 0 /\ In (EvRem c) (log s).
Proof.
  enough (X : exists s, reach anything s /\ In (EvRem (mkC 0 5 0)) (log s)).
  { destruct X as [s X]. exists s, (mkC 0 5 0). intuition. }
  eexists. split; [eapply (exec_run [LReg 5 0; LClean 0; LCleanStep]); vm_compute; reflexivity|]. vm_compute. auto.
Qed.

(** C48. Two threads clean up the same owner (unix_domain_engine.cpp 174-187): each registers a clean-up command with
    that owner and waits for it. Executing the first removes the second, whose thread waits for ever. *)
Theorem C48_concurrent_cleanup_refuted : exists s, reach anything s /\
  let first := mkC 0 immediate 7 in let second := mkC 1 immediate 7 in
  In (EvRun first 0) (log s) /\ In (EvCleaned 7) (log s) /\
  ~ In second (queue s) /\ count (is_run second) (log s) = 0 /\ count (is_rem second) (log s) = 1.
Proof.
  eexists. split; [eapply (exec_run [LReg 0 7; LReg 0 7; LProcess; LLoop; LClean 7; LCleanStep; LCleanStep; LReturn]); vm_compute; reflexivity|].
  vm_compute. intuition.
Qed.

(** ** The hypotheses are met *)

(** Three owners, equal due times, a clean-up interrupted by a registration, a callback that registers again. *)
Example C48_example : exists s, reach anything s /\
  rev (filter (fun v => match v with EvReg _ => false | _ => true end) (log s)) =
    [EvRun (mkC 3 0 2) 50; EvClean 1; EvRem (mkC 1 20 1); EvRem (mkC 4 30 1); EvCleaned 1;
     EvRun (mkC 2 20 2) 50; EvRun (mkC 5 20 1) 50; EvRun (mkC 0 30 3) 50; EvRet 50 0]%Z.
Proof.
  eexists. split; [eapply (exec_run [LReg 30 3; LReg 20 1; LReg 20 2; LReg 0 2; LReg 30 1; LTick 50; LProcess; LLoop;
     LClean 1; LCleanStep; LCleanStep; LReg 20 1; LCleanStep; LCleanStep; LCleanStep; LReturn;
     LLoop; LReturn; LLoop; LReturn; LLoop; LReturn; LLoop]); vm_compute; reflexivity|].
  vm_compute. reflexivity.
Qed.

Fixpoint exec_ok (ls : list label) (s : state) : Prop :=
  match ls with [] => True | l :: r => timely l s /\ match step l s with Some s' => exec_ok r s' | None => False end end.
(** A timely run that sleeps with a queued command. *)
Example C67_example : exists s, reach timely s /\ queue s = [mkC 0 (10 * ms) 1] /\ pipe s = 0 /\ writers s = 0 /\
  at_ s = PSleep (Some (11 * ms))%Z.
Proof.
  pose (ls := [LProcess; LLoop; LPoll; LReg (10 * ms) 1; LPipe; LPipeWake; LProcess; LLoop; LPoll]).
  assert (X : forall ls s s', reach timely s -> exec_ok ls s -> exec ls s = Some s' -> reach timely s').
  { clear ls. induction ls as [|l r IH]; cbn; intros s s' R O E; [inversion E; subst; exact R|].
    destruct O as [O1 O2]. destruct (step l s) as [s1|] eqn:St; [|discriminate].
    exact (IH s1 s' (reach_step timely s l s1 R O1 St) O2 E). }
  eexists. split.
  - eapply (X ls (init 0)); [constructor; lia| |vm_compute; reflexivity]. vm_compute. intuition.
  - vm_compute. auto.
Qed.

Print Assumptions C48_order.
Print Assumptions C48_exactly_once.
Print Assumptions C48_cleanup_all_own.
Print Assumptions C48_result.
Print Assumptions C67_wakes_up_partial.
Print Assumptions C67_due_command_runs_partial.
