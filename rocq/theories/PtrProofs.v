(** Lemmas about pointers to arguments and results. *)
From Verif Require Import Base PtrModel PtrSpec.

Lemma oeqb_eq a b : oeqb a b = true <-> a = b.
Proof.
  destruct a as [x|], b as [y|]; cbn; split; intros H; try congruence; try discriminate.
  - apply Nat.eqb_eq in H. congruence.
  - injection H as ->. apply Nat.eqb_refl.
Qed.

Lemma eltb_eq a b : eltb a b = true <-> a = b.
Proof.
  destruct a as [[m p] e], b as [[m' p'] e']. cbn. rewrite !andb_true_iff, !Nat.eqb_eq, oeqb_eq. split.
  - intros [[-> ->] ->]. reflexivity.
  - intros E. injection E as -> -> ->. auto.
Qed.

Lemma elt_dec (a b : elt) : {a = b} + {a <> b}.
Proof.
  destruct (eltb a b) eqn:E; [left; now apply eltb_eq|right; intros H; apply eltb_eq in H; congruence].
Qed.

Lemma set_eq {A} (f : elt -> A) k v : set f k v k = v.
Proof. unfold set. replace (eltb k k) with true; [reflexivity|]. symmetry. now apply eltb_eq. Qed.

Lemma set_neq {A} (f : elt -> A) k v k' : k' <> k -> set f k v k' = f k'.
Proof. intros H. unfold set. destruct (eltb k' k) eqn:E; [apply eltb_eq in E; congruence|reflexivity]. Qed.

Lemma upd_length l : forall i o, length (upd l i o) = length l.
Proof. induction l as [|x l IH]; intros [|i] o; cbn [upd length]; [reflexivity..|]. now rewrite IH. Qed.

Lemma upd_eq l : forall i o, i < length l -> nth_error (upd l i o) i = Some o.
Proof. induction l as [|x l IH]; intros [|i] o H; cbn [length] in H; [lia..|reflexivity|]. cbn [upd nth_error]. apply IH. lia. Qed.

Lemma upd_neq l : forall i j o, j <> i -> nth_error (upd l i o) j = nth_error l j.
Proof.
  induction l as [|x l IH]; intros [|i] [|j] o H; cbn [upd nth_error]; try reflexivity; [congruence|].
  apply IH. congruence.
Qed.

Lemma nth_lt {A} (l : list A) i o : nth_error l i = Some o -> i < length l.
Proof. intros H. apply nth_error_Some. congruence. Qed.

(** * The invariant *)

Definition ranged (c : cfg) (k : elt) : Prop :=
  match k with (m, p, e) => p < qsize c /\ match e with Some i => i < nargs c m | None => True end end.

Record Inv (c : cfg) (s : st) : Prop := mkInv {
  inv_uniq : forall i j k, holds s i k -> holds s j k -> i = j;
  inv_flag : forall k, flag s k = true <-> exists i, holds s i k;
  inv_excl : forall m p i, flag s (m, p, Some i) = true -> flag s (m, p, None) = true -> False;
  inv_range : forall i k, holds s i k -> ranged c k
}.

Lemma inv_init c : Inv c init.
Proof.
  constructor.
  - intros i j k H. unfold holds in H. cbn in H. destruct i; discriminate.
  - intros k. cbn. split; [discriminate|]. intros [i H]. unfold holds in H. cbn in H. destruct i; discriminate.
  - cbn. discriminate.
  - intros i k H. unfold holds in H. cbn in H. destruct i; discriminate.
Qed.

Lemma inv_noflag c s k : Inv c s -> flag s k = false -> forall i, ~ holds s i k.
Proof. intros I F i H. assert (flag s k = true) by (apply (inv_flag c s I); exists i; exact H). congruence. Qed.

(** ** A new pointer *)

Lemma new_ptr_holds s k j k' : holds (new_ptr s k) j k' <-> holds s j k' \/ (j = length (objs s) /\ k' = k).
Proof.
  unfold holds, new_ptr. cbn [objs].
  destruct (lt_dec j (length (objs s))) as [L|L].
  - rewrite nth_error_app1 by exact L. split; [auto|]. intros [H|[H _]]; [exact H|lia].
  - rewrite nth_error_app2 by lia. split.
    + intros H. right. destruct (j - length (objs s)) as [|x] eqn:E.
      * cbn in H. injection H as <-. split; [lia|reflexivity].
      * destruct x; discriminate.
    + intros [H|[-> ->]].
      * apply nth_lt in H. lia.
      * rewrite Nat.sub_diag. reflexivity.
Qed.

Lemma holds_lt s j k : holds s j k -> j < length (objs s).
Proof. apply nth_lt. Qed.

(** ** A state with the same pointers and flags *)
Definition same (s s' : st) : Prop := (forall k, flag s' k = flag s k) /\ (forall j k, holds s' j k <-> holds s j k).

Lemma inv_same c s s' : same s s' -> Inv c s -> Inv c s'.
Proof.
  intros [F H] I. constructor.
  - intros i j k A B. apply H in A, B. exact (inv_uniq c s I i j k A B).
  - intros k. rewrite F, (inv_flag c s I). split; intros [i A]; exists i; apply H; exact A.
  - intros m p i A B. rewrite F in A, B. exact (inv_excl c s I m p i A B).
  - intros i k A. apply H in A. exact (inv_range c s I i k A).
Qed.

(** ** Allocate *)

Lemma new_ptrs_spec m p : forall n b s,
  let s' := fold_left (fun s i => new_ptr s (m, p, Some i)) (seq b n) s in
  length (objs s') = length (objs s) + n /\
  val s' = val s /\
  (forall j k, holds s' j k <-> holds s j k \/ exists i, i < n /\ j = length (objs s) + i /\ k = (m, p, Some (b + i))) /\
  (forall k, flag s' k = true <-> flag s k = true \/ exists i, i < n /\ k = (m, p, Some (b + i))).
Proof.
  induction n as [|n IH]; intros b s; cbn zeta.
  - cbn [seq fold_left]. split; [lia|]. split; [reflexivity|]. split.
    + intros j k. split; [auto|]. intros [H|[i [L _]]]; [exact H|lia].
    + intros k. split; [auto|]. intros [H|[i [L _]]]; [exact H|lia].
  - cbn [seq fold_left]. specialize (IH (S b) (new_ptr s (m, p, Some b))). cbn zeta in IH.
    destruct IH as [I1 [I2 [I3 I4]]].
    assert (LN : length (objs (new_ptr s (m, p, Some b))) = S (length (objs s))).
    { unfold new_ptr. cbn [objs]. rewrite app_length. cbn [length]. lia. }
    rewrite LN in I1, I3. split; [lia|]. split; [exact I2|]. split.
    + intros j k. rewrite I3, new_ptr_holds. split.
      * intros [[H|[-> ->]]|[i [L [-> ->]]]]; [left; exact H| |].
        -- right. exists 0. repeat split; [lia|lia|]. do 2 f_equal. lia.
        -- right. exists (S i). repeat split; [lia|lia|]. do 2 f_equal. lia.
      * intros [H|[[|i] [L [-> ->]]]]; [left; left; exact H| |].
        -- left. right. split; [lia|]. do 2 f_equal. lia.
        -- right. exists i. repeat split; [lia|lia|]. do 2 f_equal. lia.
    + intros k. rewrite I4. unfold new_ptr at 1. cbn [flag].
      destruct (elt_dec k (m, p, Some b)) as [->|NE].
      * rewrite set_eq. split; [|auto]. intros _. right. exists 0. split; [lia|]. do 2 f_equal. lia.
      * rewrite set_neq by exact NE. split.
        -- intros [H|[i [L ->]]]; [left; exact H|]. right. exists (S i). split; [lia|]. do 2 f_equal. lia.
        -- intros [H|[[|i] [L ->]]]; [left; exact H| |].
           ++ exfalso. apply NE. do 2 f_equal. lia.
           ++ right. exists i. split; [lia|]. do 2 f_equal. lia.
Qed.

Lemma slot_free_spec c s m p : Inv c s -> slot_free c s m p = true -> forall e, flag s (m, p, e) = false.
Proof.
  intros I H e. unfold slot_free in H. apply andb_true_iff in H. destruct H as [A B].
  apply negb_true_iff in A, B. destruct e as [i|]; [|exact B].
  destruct (flag s (m, p, Some i)) eqn:E; [|reflexivity].
  apply (inv_flag c s I) in E as E2. destruct E2 as [j HJ].
  pose proof (inv_range c s I j _ HJ) as [_ R].
  assert (existsb (fun i => flag s (m, p, Some i)) (seq 0 (nargs c m)) = true).
  { apply existsb_exists. exists i. split; [apply in_seq; lia|exact E]. }
  congruence.
Qed.

Lemma slot_free_conv c s m p : (forall e, flag s (m, p, e) = false) -> slot_free c s m p = true.
Proof.
  intros H. unfold slot_free. apply andb_true_iff. split; [|now rewrite H].
  apply negb_true_iff. destruct (existsb _ _) eqn:E; [|reflexivity].
  apply existsb_exists in E. destruct E as [i [_ F]]. rewrite H in F. discriminate.
Qed.

Lemma next_slot_some c s m p : Inv c s -> next_slot c s m = Some p ->
  p < qsize c /\ (forall e, flag s (m, p, e) = false) /\ (forall q, q < p -> in_use s m q).
Proof.
  intros I H. unfold next_slot in H.
  assert (G : forall n b, List.find (slot_free c s m) (seq b n) = Some p ->
    p < b + n /\ slot_free c s m p = true /\ forall q, b <= q -> q < p -> slot_free c s m q = false).
  { induction n as [|n IH]; intros b E; [discriminate|]. cbn [seq List.find] in E.
    destruct (slot_free c s m b) eqn:F.
    - injection E as <-. repeat split; [lia|exact F|lia].
    - destruct (IH (S b) E) as [X [Y Z]]. repeat split; [lia|exact Y|].
      intros q Q1 Q2. destruct (Nat.eq_dec q b) as [->|NE]; [exact F|]. apply Z; lia. }
  destruct (G _ _ H) as [X [Y Z]]. split; [lia|]. split.
  - exact (slot_free_spec c s m p I Y).
  - intros q Q. specialize (Z q ltac:(lia) Q).
    unfold slot_free in Z. apply andb_false_iff in Z. destruct Z as [Z|Z]; apply negb_false_iff in Z.
    + apply existsb_exists in Z. destruct Z as [i [_ F]]. apply (inv_flag c s I) in F. destruct F as [j J].
      exists j, (Some i). exact J.
    + apply (inv_flag c s I) in Z. destruct Z as [j J]. exists j, None. exact J.
Qed.

Lemma next_slot_none c s m : Inv c s -> (next_slot c s m = None <-> forall p, p < qsize c -> in_use s m p).
Proof.
  intros I. split.
  - intros H p P. unfold next_slot in H.
    assert (Z : slot_free c s m p = false).
    { destruct (slot_free c s m p) eqn:E; [|reflexivity].
      pose proof (List.find_none _ _ H p) as N. rewrite N in E; [discriminate|]. apply in_seq. lia. }
    unfold slot_free in Z. apply andb_false_iff in Z. destruct Z as [Z|Z]; apply negb_false_iff in Z.
    + apply existsb_exists in Z. destruct Z as [i [_ F]]. apply (inv_flag c s I) in F. destruct F as [j J].
      exists j, (Some i). exact J.
    + apply (inv_flag c s I) in Z. destruct Z as [j J]. exists j, None. exact J.
  - intros H. destruct (next_slot c s m) as [p|] eqn:E; [|reflexivity].
    destruct (next_slot_some c s m p I E) as [P [F _]]. destruct (H p P) as [j [e J]].
    exfalso. exact (inv_noflag c s _ I (F e) j J).
Qed.

Lemma alloc_inv c s m p n : Inv c s -> n = nargs c m -> p < qsize c -> (forall e, flag s (m, p, e) = false) ->
  Inv c (new_ptrs s m p n).
Proof.
  intros I N P F. destruct (new_ptrs_spec m p n 0 s) as [S1 [S2 [S3 S4]]]. unfold new_ptrs.
  set (s' := fold_left _ _ _) in *. cbn [Nat.add] in S3, S4.
  constructor.
  - intros i j k A B. apply S3 in A, B.
    destruct A as [A|[x [X1 [X2 X3]]]], B as [B|[y [Y1 [Y2 Y3]]]].
    + exact (inv_uniq c s I i j k A B).
    + subst. exfalso. exact (inv_noflag c s _ I (F _) i A).
    + subst. exfalso. exact (inv_noflag c s _ I (F _) j B).
    + subst. injection Y3 as ->. reflexivity.
  - intros k. rewrite S4, (inv_flag c s I). split.
    + intros [[i A]|[i [L ->]]]; [exists i; apply S3; left; exact A|].
      exists (length (objs s) + i). apply S3. right. exists i. auto.
    + intros [j A]. apply S3 in A. destruct A as [A|[i [L [_ ->]]]]; [left; exists j; exact A|right; exists i; auto].
  - intros m' p' i A B. apply S4 in A, B. destruct B as [B|[y [_ Y]]]; [|discriminate].
    destruct A as [A|[x [_ X]]]; [exact (inv_excl c s I m' p' i A B)|].
    injection X as -> -> ->. rewrite F in B. discriminate.
  - intros j k A. apply S3 in A. destruct A as [A|[i [L [_ ->]]]]; [exact (inv_range c s I j k A)|].
    cbn. split; [exact P|lia].
Qed.

(** ** Writes *)

Lemma write_spec s id v s' : write s id v = Some s' ->
  exists k, holds s id k /\ same s s' /\ objs s' = objs s /\ val s' = set (val s) k v.
Proof.
  unfold write, holds. destruct (nth_error (objs s) id) as [[k [|] [|]]|] eqn:E; try discriminate.
  intros H. injection H as <-. exists k. split; [reflexivity|]. split; [|split; reflexivity].
  split; [reflexivity|]. intros j k'. unfold holds. cbn [objs]. reflexivity.
Qed.

Lemma write_ok s id k v : holds s id k -> write s id v = Some (mkSt (flag s) (set (val s) k v) (objs s)).
Proof. unfold holds, write. intros ->. reflexivity. Qed.

Lemma writes_spec m p : forall vs ids s b,
  (forall i id, nth_error ids i = Some id -> holds s id (m, p, Some (b + i))) -> length ids = length vs ->
  exists f, writes s ids vs = Some (mkSt (flag s) f (objs s)) /\
    (forall k, (forall i, i < length vs -> k <> (m, p, Some (b + i))) -> f k = val s k) /\
    (forall i v, nth_error vs i = Some v -> f (m, p, Some (b + i)) = v).
Proof.
  induction vs as [|v vs IH]; intros [|id ids] s b H L; try discriminate.
  - exists (val s). destruct s; cbn. split; [reflexivity|]. split; [reflexivity|]. intros [|i] v; discriminate.
  - cbn [writes]. assert (H0 := H 0 id eq_refl). rewrite (write_ok s id _ v H0).
    set (s1 := mkSt (flag s) (set (val s) (m, p, Some (b + 0)) v) (objs s)).
    destruct (IH ids s1 (S b)) as [f [F1 [F2 F3]]].
    + intros i id' E. pose proof (H (S i) id' E) as G. unfold holds in *. cbn [objs s1].
      replace (S b + i) with (b + S i) by lia. exact G.
    + injection L as L. exact L.
    + exists f. split; [exact F1|]. split.
      * intros k K. rewrite F2.
        -- cbn [val s1]. apply set_neq. apply K. cbn [length]. lia.
        -- intros i I. replace (S b + i) with (b + S i) by lia. apply K. cbn [length]. lia.
      * intros [|i] w E.
        -- injection E as <-. rewrite F2.
           ++ cbn [val s1]. apply set_eq.
           ++ intros i I Q. injection Q as Q. lia.
        -- replace (b + S i) with (S b + i) by lia. apply F3, E.
Qed.

(** ** Parameters of a call *)

Lemma take_spec m p : forall ids s b,
  (forall i id, nth_error ids i = Some id -> holds s id (m, p, Some (b + i))) ->
  exists ob, take s ids = Some (mkSt (flag s) (val s) ob, map (fun i => ((m, p, Some i), true)) (seq b (length ids))) /\
    length ob = length (objs s) /\
    (forall j, ~ In j ids -> nth_error ob j = nth_error (objs s) j) /\
    (forall j k, In j ids -> nth_error ob j <> Some (mkObj k true false)) /\
    (forall j, In j ids -> exists k, nth_error ob j = Some (mkObj k false false)).
Proof.
  induction ids as [|id ids IH]; intros s b H.
  - exists (objs s). destruct s. cbn. split; [reflexivity|]. split; [reflexivity|]. split; [reflexivity|].
    split; [intros j k []|intros j []].
  - cbn [take length seq map]. pose proof (H 0 id eq_refl) as H0. unfold holds in H0. rewrite H0. cbn [o_dead].
    assert (ID : id < length (objs s)) by (eapply nth_lt, H0).
    assert (NI : ~ In id ids).
    { intros I. apply In_nth_error in I. destruct I as [i E]. pose proof (H (S i) id E) as G. unfold holds in G.
      rewrite H0 in G. injection G as G. lia. }
    set (s1 := mkSt (flag s) (val s) (upd (objs s) id (moved (mkObj (m, p, Some (b + 0)) true false)))).
    destruct (IH s1 (S b)) as [ob [T1 [T2 [T3 [T4 T5]]]]].
    + intros i id' E. pose proof (H (S i) id' E) as G. unfold holds in *. cbn [objs s1].
      rewrite upd_neq.
      * replace (S b + i) with (b + S i) by lia. exact G.
      * intros ->. apply NI. eapply nth_error_In, E.
    + rewrite T1. exists ob. cbn [flag val s1]. rewrite Nat.add_0_r. split; [reflexivity|].
      split. { rewrite T2. cbn [objs s1]. apply upd_length. }
      split. { intros j NJ. rewrite T3.
        - cbn [objs s1]. apply upd_neq. intros ->. apply NJ. left. reflexivity.
        - intros I. apply NJ. right. exact I. }
      split.
      * intros j k [<-|J]; [|apply T4, J]. rewrite T3 by exact NI. cbn [objs s1]. rewrite upd_eq by exact ID. discriminate.
      * intros j [<-|J]; [|apply T5, J]. rewrite T3 by exact NI. cbn [objs s1]. rewrite upd_eq by exact ID.
        cbn [moved o_elt o_dead]. eexists. reflexivity.
Qed.

Lemma common_position_same m p b n : n <> 0 ->
  common_position (map (fun i => ((m, p, Some i), true)) (seq b n)) = Some p.
Proof.
  destruct n as [|n]; [congruence|]. intros _. cbn [seq map common_position fst position].
  replace (forallb _ _) with true; [reflexivity|].
  symmetry. apply forallb_forall. intros x X. apply in_map_iff in X. destruct X as [i [<- _]]. apply Nat.eqb_refl.
Qed.

Lemma release_all_flag m p : forall n b f k,
  fold_left (fun f x => release f (fst x) (snd x)) (map (fun i => ((m, p, Some i) : elt, true)) (seq b n)) f k = true <->
  f k = true /\ forall i, i < n -> k <> (m, p, Some (b + i)).
Proof.
  induction n as [|n IH]; intros b f k.
  - cbn [seq map fold_left]. split; [intros H; split; [exact H|lia]|intros [H _]; exact H].
  - cbn [seq map fold_left]. rewrite IH. cbn [fst snd release].
    destruct (elt_dec k (m, p, Some b)) as [->|NE].
    + rewrite set_eq. split; [intros [H _]; discriminate|]. intros [_ H]. exfalso. apply (H 0); [lia|]. do 2 f_equal. lia.
    + rewrite set_neq by exact NE. split; intros [A B]; (split; [exact A|]).
      * intros [|i] L; [rewrite Nat.add_0_r; exact NE|]. replace (b + S i) with (S b + i) by lia. apply B. lia.
      * intros i L. replace (S b + i) with (b + S i) by lia. apply B. lia.
Qed.

(** What a call with live pointers to the arguments of a slot does *)
Record called (c : cfg) (s : st) (m p : nat) (ids : list nat) (a : answer) (s' : st) (r : res) : Prop := mkCalled {
  ca_holds : forall j k, holds s' j k <->
    (holds s j k /\ ~ In j ids) \/ (exists v, a = Ok v /\ hasret c m = true /\ j = length (objs s) /\ k = (m, p, None));
  ca_flag : forall k, flag s' k = true <->
    (flag s k = true /\ forall i, i < nargs c m -> k <> (m, p, Some i)) \/
    (exists v, a = Ok v /\ hasret c m = true /\ k = (m, p, None));
  ca_val : forall k, k <> (m, p, None) -> val s' k = val s k;
  ca_len : length (objs s) <= length (objs s');
  ca_old : forall j, j < length (objs s) -> ~ In j ids -> nth_error (objs s') j = nth_error (objs s) j;
  ca_used : forall j, In j ids -> exists k, nth_error (objs s') j = Some (mkObj k false false);
  ca_res : r = match a with
               | Ok v => RDone (slot_args c s m p) (if hasret c m then Some (length (objs s)) else None)
               | _ => RError
               end;
  ca_ok : forall v, a = Ok v -> hasret c m = true -> val s' (m, p, None) = v
}.

Lemma do_call_spec c s m p a : flag s (m, p, None) = false -> (forall j, ~ holds s j (m, p, None)) ->
  let (s', r) := do_call c s m p a in
  (forall j k, holds s' j k <->
     holds s j k \/ (exists v, a = Ok v /\ hasret c m = true /\ j = length (objs s) /\ k = (m, p, None))) /\
  (forall k, flag s' k = true <-> flag s k = true \/ (exists v, a = Ok v /\ hasret c m = true /\ k = (m, p, None))) /\
  (forall k, k <> (m, p, None) -> val s' k = val s k) /\
  length (objs s) <= length (objs s') /\
  (forall j, j < length (objs s) -> nth_error (objs s') j = nth_error (objs s) j) /\
  r = match a with
      | Ok v => RDone (slot_args c s m p) (if hasret c m then Some (length (objs s)) else None)
      | _ => RError
      end /\
  (forall v, a = Ok v -> hasret c m = true -> val s' (m, p, None) = v).
Proof.
  intros F NH. unfold do_call. destruct a as [|w|v].
  - repeat split; auto; try (intros [H|[v [E _]]]; [exact H|discriminate]); try discriminate; lia.
  - set (s' := match w with Some v => _ | None => s end).
    assert (E : flag s' = flag s /\ objs s' = objs s /\ forall k, k <> (m, p, None) -> val s' k = val s k).
    { unfold s'. destruct w as [v|]; [|auto]. destruct (hasret c m); [|auto]. cbn. repeat split.
      intros k K. now apply set_neq. }
    destruct E as [E1 [E2 E3]]. unfold holds. rewrite E1, E2.
    repeat split; auto; try (intros [H|[v [E _]]]; [exact H|discriminate]); try discriminate.
  - destruct (hasret c m) eqn:HR.
    + split; [|split; [|split; [|split; [|split; [|split]]]]].
      * intros j k. rewrite new_ptr_holds. unfold holds at 1. cbn [objs]. split.
        -- intros [H|[-> ->]]; [left; exact H|right; exists v; auto].
        -- intros [H|[v' [_ [_ [-> ->]]]]]; [left; exact H|right; auto].
      * intros k. unfold new_ptr. cbn [flag]. destruct (elt_dec k (m, p, None)) as [->|NE].
        -- rewrite set_eq. split; [|reflexivity]. intros _. right. exists v. auto.
        -- rewrite set_neq by exact NE. split; [auto|]. intros [H|[v' [_ [_ E]]]]; [exact H|congruence].
      * intros k K. cbn. now apply set_neq.
      * unfold new_ptr. cbn [objs]. rewrite app_length. lia.
      * intros j J. unfold new_ptr. cbn [objs]. now rewrite nth_error_app1.
      * reflexivity.
      * intros v' E _. injection E as <-. cbn. apply set_eq.
    + repeat split; auto; try (intros [H|[v' [_ [E _]]]]; [exact H|discriminate]); try discriminate; lia.
Qed.

Lemma call_spec c s m p ids a : Inv c s -> nargs c m <> 0 -> length ids = nargs c m ->
  (forall i id, nth_error ids i = Some id -> holds s id (m, p, Some i)) ->
  called c s m p ids a (fst (call c s m ids a)) (snd (call c s m ids a)).
Proof.
  intros I N L H. unfold call.
  destruct (take_spec m p ids s 0 H) as [ob [T1 [T2 [T3 [T4 T5]]]]]. rewrite T1.
  rewrite common_position_same by congruence. rewrite L.
  assert (FN : flag s (m, p, None) = false).
  { destruct (flag s (m, p, None)) eqn:E; [|reflexivity]. exfalso.
    destruct ids as [|id ids]; [cbn in L; congruence|].
    pose proof (H 0 id eq_refl) as H0. apply (inv_excl c s I m p 0); [|exact E]. apply (inv_flag c s I). exists id. exact H0. }
  assert (NH : forall j, ~ holds s j (m, p, None)) by (apply (inv_noflag c s _ I FN)).
  set (s1 := mkSt (flag s) (val s) ob).
  assert (H1 : forall j k, holds s1 j k <-> holds s j k /\ ~ In j ids).
  { intros j k. unfold holds. cbn [objs s1]. destruct (in_dec Nat.eq_dec j ids) as [J|J].
    - split; [intros E; exfalso; exact (T4 j k J E)|]. intros [_ X]. contradiction.
    - rewrite T3 by exact J. split; [auto|]. intros [E _]. exact E. }
  pose proof (do_call_spec c s1 m p a FN) as D.
  assert (NH1 : forall j, ~ holds s1 j (m, p, None)) by (intros j X; apply H1 in X; exact (NH j (proj1 X))).
  specialize (D NH1). destruct (do_call c s1 m p a) as [s2 r]. cbn [fst snd].
  destruct D as [D1 [D2 [D3 [D4 [D5 [D6 D7]]]]]].
  assert (LN : length (objs s1) = length (objs s)) by exact T2. rewrite LN in *.
  constructor.
  - intros j k. unfold release_all, holds. cbn [objs]. fold (holds s2 j k). rewrite D1, H1. reflexivity.
  - intros k. unfold release_all. cbn [flag]. rewrite release_all_flag, D2. cbn [flag s1 Nat.add]. split.
    + intros [[A|[v [E [HR ->]]]] B]; [left; auto|right; exists v; auto].
    + intros [[A B]|[v [E [HR ->]]]]; [auto|]. split; [right; exists v; auto|]. intros i _ X. discriminate.
  - intros k K. cbn [release_all val]. rewrite D3 by exact K. reflexivity.
  - cbn [release_all objs]. exact D4.
  - intros j J NJ. cbn [release_all objs]. rewrite D5 by exact J. cbn [objs s1]. now apply T3.
  - intros j J. cbn [release_all objs]. destruct (T5 j J) as [k K]. exists k. rewrite D5; [exact K|].
    rewrite <- T2. eapply nth_lt, K.
  - exact D6.
  - intros v E HR. cbn [release_all val]. now apply D7.
Qed.

Lemma called_inv c s m p ids a s' r : Inv c s -> p < qsize c -> length ids = nargs c m ->
  (forall i id, nth_error ids i = Some id -> holds s id (m, p, Some i)) -> flag s (m, p, None) = false ->
  called c s m p ids a s' r -> Inv c s'.
Proof.
  intros I P L H FN C.
  assert (INV : forall i, i < nargs c m -> exists id, In id ids /\ holds s id (m, p, Some i)).
  { intros i LI. rewrite <- L in LI. apply nth_error_Some in LI. destruct (nth_error ids i) as [id|] eqn:E; [|congruence].
    exists id. split; [eapply nth_error_In, E|apply H, E]. }
  constructor.
  - intros i j k A B. apply (ca_holds _ _ _ _ _ _ _ _ C) in A, B.
    destruct A as [[A NA]|[v [_ [_ [-> ->]]]]], B as [[B NB]|[w [_ [_ [-> E]]]]].
    + exact (inv_uniq c s I i j k A B).
    + subst. exfalso. exact (inv_noflag c s _ I FN i A).
    + exfalso. exact (inv_noflag c s _ I FN j B).
    + reflexivity.
  - intros k. rewrite (ca_flag _ _ _ _ _ _ _ _ C). split.
    + intros [[A B]|[v [E [HR ->]]]].
      * apply (inv_flag c s I) in A. destruct A as [i A]. exists i. apply (ca_holds _ _ _ _ _ _ _ _ C). left.
        split; [exact A|]. intros J. apply In_nth_error in J. destruct J as [x X]. pose proof (H x i X) as G.
        assert (k = (m, p, Some x)) by (unfold holds in *; congruence).
        apply (B x); [|assumption]. rewrite <- L. eapply nth_lt, X.
      * exists (length (objs s)). apply (ca_holds _ _ _ _ _ _ _ _ C). right. exists v. auto.
    + intros [i A]. apply (ca_holds _ _ _ _ _ _ _ _ C) in A. destruct A as [[A NA]|[v [E [HR [_ ->]]]]].
      * left. split; [apply (inv_flag c s I); exists i; exact A|].
        intros x LX ->. destruct (INV x LX) as [id [J G]]. rewrite (inv_uniq c s I i id _ A G) in NA. contradiction.
      * right. exists v. auto.
  - intros m' p' i A B. apply (ca_flag _ _ _ _ _ _ _ _ C) in A, B.
    destruct A as [[A NA]|[v [_ [_ E]]]]; [|discriminate].
    destruct B as [[B _]|[w [_ [_ E]]]]; [exact (inv_excl c s I m' p' i A B)|].
    injection E as -> ->.
    apply (inv_flag c s I) in A. destruct A as [j A]. pose proof (inv_range c s I j _ A) as [_ R].
    exact (NA i R eq_refl).
  - intros j k A. apply (ca_holds _ _ _ _ _ _ _ _ C) in A. destruct A as [[A _]|[v [_ [_ [_ ->]]]]].
    + exact (inv_range c s I j k A).
    + cbn. auto.
Qed.

(** ** Moves and destruction *)

Lemma drop_spec c s id k own : Inv c s -> nth_error (objs s) id = Some (mkObj k own false) ->
  exists s', drop s id = Some s' /\ val s' = val s /\ length (objs s') = length (objs s) /\
    (forall j, j <> id -> nth_error (objs s') j = nth_error (objs s) j) /\
    (forall j k', holds s' j k' <-> holds s j k' /\ j <> id) /\ Inv c s'.
Proof.
  intros I E. unfold drop. rewrite E. eexists. split; [reflexivity|]. cbn [val objs].
  assert (ID : id < length (objs s)) by (eapply nth_lt, E).
  assert (HH : forall j k', holds (mkSt (release (flag s) k own) (val s) (upd (objs s) id (mkObj k own true))) j k'
    <-> holds s j k' /\ j <> id).
  { intros j k'. unfold holds. cbn [objs]. destruct (Nat.eq_dec j id) as [->|NE].
    - rewrite upd_eq by exact ID. split; [discriminate|]. intros [_ X]. congruence.
    - rewrite upd_neq by exact NE. split; [auto|]. intros [X _]. exact X. }
  split; [reflexivity|]. split; [apply upd_length|]. split; [intros j NE; now apply upd_neq|]. split; [exact HH|].
  assert (FF : forall k', release (flag s) k own k' = true <-> flag s k' = true /\ (own = true -> k' <> k)).
  { intros k'. unfold release. destruct own.
    - destruct (elt_dec k' k) as [->|NE].
      + rewrite set_eq. split; [discriminate|]. intros [_ X]. exfalso. now apply X.
      + rewrite set_neq by exact NE. split; [auto|]. intros [X _]. exact X.
    - split; [intros X; split; [exact X|discriminate]|]. intros [X _]. exact X. }
  constructor.
  - intros i j k' A B. apply HH in A, B. exact (inv_uniq c s I i j k' (proj1 A) (proj1 B)).
  - intros k'. cbn [flag]. rewrite FF, (inv_flag c s I). split.
    + intros [[i A] O]. exists i. apply HH. split; [exact A|]. intros ->. unfold holds in A.
      rewrite E in A. injection A as -> ->. now apply O.
    + intros [i A]. apply HH in A. destruct A as [A NE]. split; [exists i; exact A|].
      intros -> ->. apply NE. apply (inv_uniq c s I i id k A). exact E.
  - intros m p i A B. cbn [flag] in A, B. apply FF in A, B. exact (inv_excl c s I m p i (proj1 A) (proj1 B)).
  - intros i k' A. apply HH in A. exact (inv_range c s I i k' (proj1 A)).
Qed.

Lemma move_inv c s id o : Inv c s -> nth_error (objs s) id = Some o -> o_dead o = false ->
  let s' := mkSt (flag s) (val s) (upd (objs s) id (moved o) ++ [o]) in
  (forall j k, holds s' j k <-> (holds s j k /\ j <> id) \/ (j = length (objs s) /\ holds s id k)) /\ Inv c s'.
Proof.
  intros I E D. cbn zeta.
  assert (ID : id < length (objs s)) by (eapply nth_lt, E).
  assert (HH : forall j k, holds (mkSt (flag s) (val s) (upd (objs s) id (moved o) ++ [o])) j k <->
    (holds s j k /\ j <> id) \/ (j = length (objs s) /\ holds s id k)).
  { intros j k. unfold holds. cbn [objs].
    destruct (lt_dec j (length (objs s))) as [L|L].
    - rewrite nth_error_app1 by (rewrite upd_length; exact L). destruct (Nat.eq_dec j id) as [->|NE].
      + rewrite upd_eq by exact ID. unfold moved. split; [discriminate|]. intros [[_ X]|[X _]]; [congruence|lia].
      + rewrite upd_neq by exact NE. split; [auto|]. intros [[X _]|[X _]]; [exact X|lia].
    - rewrite nth_error_app2 by (rewrite upd_length; lia). rewrite upd_length. rewrite E. split.
      + intros X. right. destruct (j - length (objs s)) as [|x] eqn:J; [|destruct x; discriminate].
        split; [lia|exact X].
      + intros [[X _]|[-> X]]; [apply nth_lt in X; lia|]. rewrite Nat.sub_diag. exact X. }
  split; [exact HH|]. constructor.
  - intros i j k A B. apply HH in A, B.
    destruct A as [[A NA]|[-> A]], B as [[B NB]|[-> B]].
    + exact (inv_uniq c s I i j k A B).
    + exfalso. apply NA. exact (inv_uniq c s I i id k A B).
    + exfalso. apply NB. exact (inv_uniq c s I j id k B A).
    + reflexivity.
  - intros k. cbn [flag]. rewrite (inv_flag c s I). split.
    + intros [i A]. destruct (Nat.eq_dec i id) as [->|NE].
      * exists (length (objs s)). apply HH. right. auto.
      * exists i. apply HH. left. auto.
    + intros [i A]. apply HH in A. destruct A as [[A _]|[_ A]]; [exists i|exists id]; exact A.
  - intros m p i A B. exact (inv_excl c s I m p i A B).
  - intros i k A. apply HH in A. destruct A as [[A _]|[_ A]]; exact (inv_range c s I _ k A).
Qed.

Lemma drops_spec c : forall ids s, Inv c s -> NoDup ids ->
  (forall j, In j ids -> exists k, nth_error (objs s) j = Some (mkObj k false false)) ->
  exists s', drops s ids = Some s' /\ val s' = val s /\ length (objs s') = length (objs s) /\
    (forall j k, holds s' j k <-> holds s j k) /\ Inv c s'.
Proof.
  induction ids as [|id ids IH]; intros s I ND H.
  - exists s. split; [reflexivity|]. split; [reflexivity|]. split; [reflexivity|].
    split; [intros j k; reflexivity|exact I].
  - cbn [drops]. destruct (H id (or_introl eq_refl)) as [k E]. inversion ND as [|? ? NI ND']; subst.
    destruct (drop_spec c s id k false I E) as [s1 [D1 [D2 [D3 [D4 [D5 D6]]]]]]. rewrite D1.
    destruct (IH s1 D6 ND') as [s2 [E1 [E2 [E3 [E4 E5]]]]].
    + intros j J. destruct (H j (or_intror J)) as [k' K]. exists k'. rewrite D4; [exact K|]. intros ->. contradiction.
    + exists s2. split; [exact E1|]. split; [congruence|]. split; [congruence|]. split; [|exact E5].
      intros j k'. rewrite E4, D5. split; [intros [X _]; exact X|]. intros X. split; [exact X|].
      intros ->. unfold holds in X. rewrite E in X. discriminate.
Qed.

(** ** The copying call *)

Lemma seq_nth_error b n i x : nth_error (seq b n) i = Some x -> i < n /\ x = b + i.
Proof.
  intros H. pose proof (nth_lt _ _ _ H) as L. rewrite seq_length in L. split; [exact L|].
  apply nth_error_nth with (d := 0) in H. rewrite seq_nth in H by exact L. congruence.
Qed.

Lemma slot_args_eq c s m p vs : length vs = nargs c m ->
  (forall i v, nth_error vs i = Some v -> val s (m, p, Some i) = v) -> slot_args c s m p = vs.
Proof.
  intros L H. unfold slot_args. apply nth_ext with (d := 0%N) (d' := 0%N).
  - rewrite map_length, seq_length. congruence.
  - intros i I. rewrite map_length, seq_length in I.
    rewrite nth_indep with (d' := val s (m, p, Some 0)) by (rewrite map_length, seq_length; exact I).
    rewrite map_nth with (f := fun i => val s (m, p, Some i)). rewrite seq_nth by exact I. cbn [Nat.add].
    apply H. apply nth_error_nth'. lia.
Qed.

Lemma callcopy_spec c s m vs a p : Inv c s -> nargs c m <> 0 -> length vs = nargs c m ->
  next_slot c s m = Some p ->
  exists s', step c s (CallCopy m vs true a) =
      (s', match a with
           | Ok _ => RDone vs (if hasret c m then Some (length (objs s) + nargs c m) else None)
           | _ => RError
           end) /\
    Inv c s' /\
    (forall j k, holds s' j k <-> holds s j k \/
       (exists v, a = Ok v /\ hasret c m = true /\ j = length (objs s) + nargs c m /\ k = (m, p, None))) /\
    (forall k, (forall e, k <> (m, p, e)) -> val s' k = val s k) /\
    (forall v, a = Ok v -> hasret c m = true -> val s' (m, p, None) = v).
Proof.
  intros I N L E. destruct (next_slot_some c s m p I E) as [P [F _]].
  unfold step. rewrite L, Nat.eqb_refl. apply Nat.eqb_neq in N as N'. rewrite N'. cbn [orb negb].
  unfold allocate. rewrite E.
  pose proof (alloc_inv c s m p (nargs c m) I eq_refl P F) as I1.
  destruct (new_ptrs_spec m p (nargs c m) 0 s) as [S1 [S2 [S3 S4]]]. fold (new_ptrs s m p (nargs c m)) in S1, S2, S3, S4.
  set (s1 := new_ptrs s m p (nargs c m)) in *. cbn [Nat.add] in S3, S4.
  set (ids := seq (length (objs s)) (nargs c m)).
  assert (LI : length ids = nargs c m) by apply seq_length.
  assert (H1 : forall i id, nth_error ids i = Some id -> holds s1 id (m, p, Some i)).
  { intros i id X. apply seq_nth_error in X. destruct X as [X ->]. apply S3. right. exists i. auto. }
  destruct (writes_spec m p vs ids s1 0) as [f [W1 [W2 W3]]]; [exact H1|congruence|].
  rewrite W1. set (s2 := mkSt (flag s1) f (objs s1)) in *.
  assert (I2 : Inv c s2).
  { apply (inv_same c s1); [|exact I1]. split; [reflexivity|]. intros j k. reflexivity. }
  assert (H2 : forall i id, nth_error ids i = Some id -> holds s2 id (m, p, Some i)) by exact H1.
  pose proof (call_spec c s2 m p ids a I2 N LI H2) as C.
  destruct (call c s2 m ids a) as [s3 r]. cbn [fst snd] in C.
  assert (FN : flag s2 (m, p, None) = false).
  { destruct (flag s2 (m, p, None)) eqn:Q; [|reflexivity]. cbn [flag s2] in Q. apply S4 in Q.
    destruct Q as [Q|[i [_ Q]]]; [rewrite F in Q; discriminate|discriminate]. }
  pose proof (called_inv c s2 m p ids a s3 r I2 P LI H2 FN C) as I3.
  destruct (drops_spec c ids s3 I3) as [s4 [D1 [D2 [D3 [D4 D5]]]]].
  - apply seq_NoDup.
  - exact (ca_used _ _ _ _ _ _ _ _ C).
  - rewrite D1. exists s4.
    assert (L2 : length (objs s2) = length (objs s) + nargs c m) by exact S1.
    split.
    { rewrite (ca_res _ _ _ _ _ _ _ _ C). rewrite L2.
      rewrite (slot_args_eq c s2 m p vs L); [reflexivity|]. intros i v X. cbn [val s2]. apply (W3 i v X). }
    split; [exact D5|].
    split.
    { intros j k. rewrite D4, (ca_holds _ _ _ _ _ _ _ _ C), L2. split.
      - intros [[A B]|B]; [|right; exact B]. left.
        assert (A' : holds s1 j k) by exact A. apply S3 in A'. destruct A' as [A'|[i [X [-> ->]]]]; [exact A'|].
        exfalso. apply B. apply in_seq. lia.
      - intros [A|B]; [|right; exact B]. left. split; [apply S3; left; exact A|].
        intros J. apply in_seq in J. apply holds_lt in A. lia. }
    split.
    { intros k K. rewrite D2, (ca_val _ _ _ _ _ _ _ _ C) by apply K. cbn [val s2].
      rewrite W2 by (intros i _; apply K). now rewrite S2. }
    intros v Q HR. rewrite D2. exact (ca_ok _ _ _ _ _ _ _ _ C v Q HR).
Qed.

(** ** The call without arguments *)

Lemma call0_spec c s m a p : Inv c s -> nargs c m = 0 -> hasret c m = true -> next_slot c s m = Some p ->
  exists s', step c s (Call0 m a) = (s', match a with Ok _ => RDone [] (Some (length (objs s))) | _ => RError end) /\
    Inv c s' /\
    (forall j k, holds s' j k <-> holds s j k \/ (exists v, a = Ok v /\ j = length (objs s) /\ k = (m, p, None))) /\
    (forall k, k <> (m, p, None) -> val s' k = val s k) /\
    (forall v, a = Ok v -> val s' (m, p, None) = v).
Proof.
  intros I N HR E. destruct (next_slot_some c s m p I E) as [P [F _]].
  unfold step. rewrite N, HR, E. cbn [Nat.eqb negb orb].
  pose proof (do_call_spec c s m p a (F None) (inv_noflag c s _ I (F None))) as D.
  destruct (do_call c s m p a) as [s' r]. destruct D as [D1 [D2 [D3 [D4 [D5 [D6 D7]]]]]].
  exists s'.
  assert (DH : forall j k, holds s' j k <-> holds s j k \/ (exists v, a = Ok v /\ j = length (objs s) /\ k = (m, p, None))).
  { intros j k. rewrite D1. split; (intros [A|A]; [left; exact A|right]); destruct A as [v A]; exists v; tauto. }
  split. { rewrite D6, HR. unfold slot_args. rewrite N. cbn [seq map]. destruct a; reflexivity. }
  split.
  { constructor.
    - intros i j k A B. apply DH in A, B.
      destruct A as [A|[v [_ [-> ->]]]], B as [B|[w [_ [-> X]]]].
      + exact (inv_uniq c s I i j k A B).
      + subst. exfalso. exact (inv_noflag c s _ I (F None) i A).
      + exfalso. exact (inv_noflag c s _ I (F None) j B).
      + reflexivity.
    - intros k. rewrite D2, (inv_flag c s I). split.
      + intros [[i A]|[v [X [_ ->]]]]; [exists i; apply DH; left; exact A|].
        exists (length (objs s)). apply DH. right. exists v. auto.
      + intros [i A]. apply DH in A. destruct A as [A|[v [X [_ ->]]]]; [left; exists i; exact A|right; exists v; auto].
    - intros m' p' i A B. apply D2 in A, B. destruct A as [A|[v [_ [_ X]]]]; [|discriminate].
      destruct B as [B|[v [_ [_ X]]]]; [exact (inv_excl c s I m' p' i A B)|].
      injection X as -> ->. rewrite F in A. discriminate.
    - intros j k A. apply DH in A. destruct A as [A|[v [_ [_ ->]]]]; [exact (inv_range c s I j k A)|]. cbn. auto. }
  split; [exact DH|]. split; [exact D3|]. intros v X. apply D7; assumption.
Qed.

(** ** Every state of a proper program *)

Lemma call_proper_range c s m ids p : Inv c s -> nargs c m <> 0 -> length ids = nargs c m ->
  (forall i id, nth_error ids i = Some id -> holds s id (m, p, Some i)) ->
  p < qsize c /\ flag s (m, p, None) = false.
Proof.
  intros I N L H. destruct ids as [|id ids]; [cbn in L; congruence|].
  pose proof (H 0 id eq_refl) as H0. split; [apply (inv_range c s I id _ H0)|].
  destruct (flag s (m, p, None)) eqn:E; [|reflexivity]. exfalso.
  apply (inv_excl c s I m p 0); [|exact E]. apply (inv_flag c s I). exists id. exact H0.
Qed.

Lemma step_call c s m ids a : nargs c m <> 0 -> length ids = nargs c m -> step c s (Call m ids a) = call c s m ids a.
Proof.
  intros N L. unfold step. rewrite L, Nat.eqb_refl. apply Nat.eqb_neq in N. rewrite N. reflexivity.
Qed.

Lemma step_inv c s o : Inv c s -> proper c s o -> Inv c (fst (step c s o)).
Proof.
  intros I PR. destruct o as [m sub|id v|id|id|m ids a|m vs sub a|m a]; cbn [proper] in PR.
  - unfold step. apply Nat.eqb_neq in PR. rewrite PR. unfold allocate.
    destruct (next_slot c s m) as [p|] eqn:E; [|exact I]. destruct sub; [|exact I].
    destruct (next_slot_some c s m p I E) as [P [F _]]. cbn [fst]. now apply alloc_inv.
  - destruct PR as [k H]. unfold step. rewrite (write_ok s id k v H). cbn [fst].
    apply (inv_same c s); [|exact I]. split; [reflexivity|]. intros j k'. reflexivity.
  - destruct PR as [ob [E D]]. unfold step. rewrite E, D. cbn [fst]. exact (proj2 (move_inv c s id ob I E D)).
  - destruct PR as [[k own d] [E D]]. cbn [o_dead] in D. subst d. unfold step.
    destruct (drop_spec c s id k own I E) as [s' [D1 [_ [_ [_ [_ D6]]]]]]. rewrite D1. exact D6.
  - destruct PR as [N [L [p H]]]. rewrite step_call by assumption.
    destruct (call_proper_range c s m ids p I N L H) as [P FN].
    exact (called_inv c s m p ids a _ _ I P L H FN (call_spec c s m p ids a I N L H)).
  - destruct PR as [N L]. destruct (next_slot c s m) as [p|] eqn:E.
    + destruct sub.
      * destruct (callcopy_spec c s m vs a p I N L E) as [s' [S1 [S2 _]]]. rewrite S1. exact S2.
      * unfold step. rewrite L, Nat.eqb_refl. apply Nat.eqb_neq in N. rewrite N. cbn [orb negb].
        unfold allocate. rewrite E. exact I.
    + unfold step. rewrite L, Nat.eqb_refl. apply Nat.eqb_neq in N. rewrite N. cbn [orb negb].
      unfold allocate. rewrite E. exact I.
  - destruct PR as [N HR]. destruct (next_slot c s m) as [p|] eqn:E.
    + destruct (call0_spec c s m a p I N HR E) as [s' [S1 [S2 _]]]. rewrite S1. exact S2.
    + unfold step. rewrite N, HR, E. exact I.
Qed.

Lemma reach_inv c s : reach c s -> Inv c s.
Proof. induction 1 as [|s o R IH P]; [apply inv_init|now apply step_inv]. Qed.
