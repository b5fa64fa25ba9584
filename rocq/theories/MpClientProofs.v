(** Invariants of the client connection machine (MpClientModel.v). *)

From Coq Require Import List Bool Arith Lia.
From Verif Require Import MpClientModel.
Import ListNotations.

Local Arguments transmit : simpl never.
Local Arguments arm : simpl never.

(** ** Counting *)

Fixpoint cnt (i : nat) (l : list nat) : nat :=
  match l with [] => 0 | x :: r => (if Nat.eqb x i then 1 else 0) + cnt i r end.

Lemma cnt_app i l r : cnt i (l ++ r) = cnt i l + cnt i r.
Proof. induction l; cbn; [reflexivity|rewrite IHl; lia]. Qed.

Definition eid (e : entry) : list nat := if is_send e then [] else [e_id e].
Definition sid (sl : slot) : list nat := match sl with Placeholder => [] | Held e => [e_id e] end.
Definition kid (k : cont) : list nat := match k with None => [] | Some (sl, _) => sid sl end.
Definition wid (w : option slot) : list nat := match w with None => [] | Some sl => sid sl end.
Definition gid (g : epc) : list nat :=
  match g with
  | EIdle => [] | ESending _ k => kid k | ESent _ _ k => kid k
  | ECallErr sl k => sid sl ++ kid k | ERelock k => kid k | ECall sl _ => sid sl
  | EStopTake => [] | EStopCall sl => sid sl | EStopLoop => [] | EStopCallQ e => [e_id e]
  end.
Definition qid (q : list entry) : list nat := flat_map eid q.
Local Arguments qid : simpl never.

Definition held (s : state) (i : nat) : nat := cnt i (qid (queue s)) + cnt i (wid (waiting s)) + cnt i (gid (eng s)).

Definition b2n (b : bool) : nat := if b then 1 else 0.

Fixpoint calls (i : nat) (l : list ev) : nat :=
  match l with
  | [] => 0
  | EvCall f _ :: r => b2n (Nat.eqb (e_id f) i) + calls i r
  | _ :: r => calls i r
  end.
Fixpoint acc (i : nat) (l : list ev) : bool :=
  match l with
  | [] => false
  | EvAcc f :: r => (negb (is_send f) && Nat.eqb (e_id f) i) || acc i r
  | _ :: r => acc i r
  end.
Fixpoint refd (i : nat) (l : list ev) : bool :=
  match l with
  | [] => false
  | EvRefuse f :: r => Nat.eqb (e_id f) i || refd i r
  | _ :: r => refd i r
  end.
Definition ment (v : ev) : nat :=
  match v with
  | EvAcc f | EvWire f | EvLost f | EvDrop f | EvCall f _ | EvRefuse f | EvDone f => e_id f
  end.
Definition fresh (i : nat) (l : list ev) : Prop := forall v, In v l -> ment v <> i.

Lemma fresh_acc i l : fresh i l -> acc i l = false.
Proof.
  intros F. induction l as [|v l IH]; [reflexivity|].
  assert (Fl : fresh i l) by (intros w W; apply F; right; exact W).
  assert (Fv := F v (or_introl eq_refl)). destruct v; cbn in *; auto.
  apply Nat.eqb_neq in Fv. rewrite Fv, andb_false_r. exact (IH Fl).
Qed.
Lemma fresh_refd i l : fresh i l -> refd i l = false.
Proof.
  intros F. induction l as [|v l IH]; [reflexivity|].
  assert (Fl : fresh i l) by (intros w W; apply F; right; exact W).
  assert (Fv := F v (or_introl eq_refl)). destruct v; cbn in *; auto.
  apply Nat.eqb_neq in Fv. rewrite Fv. exact (IH Fl).
Qed.
Lemma fresh_calls i l : fresh i l -> calls i l = 0.
Proof.
  intros F. induction l as [|v l IH]; [reflexivity|].
  assert (Fl : fresh i l) by (intros w W; apply F; right; exact W).
  assert (Fv := F v (or_introl eq_refl)). destruct v; cbn in *; auto.
  apply Nat.eqb_neq in Fv. rewrite Fv. exact (IH Fl).
Qed.
Lemma fresh_cons i v l : fresh i l -> ment v <> i -> fresh i (v :: l).
Proof. intros F M w [W|W]; subst; auto. Qed.
Lemma fresh_tl i v l : fresh i (v :: l) -> fresh i l.
Proof. intros F w W. apply F. right. exact W. Qed.

Lemma calls_existsb e l : existsb (is_call e) l = true -> calls (e_id e) l >= 1.
Proof.
  induction l as [|v l IH]; cbn; [discriminate|].
  destruct v; cbn; auto.
  destruct (Nat.eqb (e_id e0) (e_id e)) eqn:E; cbn; intros H; [lia|]. auto.
Qed.
Lemma existsb_calls e l : calls (e_id e) l >= 1 -> existsb (is_call e) l = true.
Proof.
  induction l as [|v l IH]; cbn; [lia|].
  destruct v; cbn; auto.
  destruct (Nat.eqb (e_id e0) (e_id e)) eqn:E; cbn; intros H; [reflexivity|]. auto.
Qed.

(** ** The pool: every schedule *)

Definition in_hand (g : epc) : nat := match g with ESending _ _ | ESent _ _ _ => 1 | _ => 0 end.
Fixpoint drops (l : list ev) : nat :=
  match l with [] => 0 | EvDrop _ :: r => S (drops r) | _ :: r => drops r end.

Definition pool_ok (c : cfg) (s : state) : Prop :=
  pool s + length (queue s) + in_hand (eng s) + drops (log s) = c_cap c.

Lemma pool_arm c s : pool (arm c s) = pool s /\ queue (arm c s) = queue s /\ eng (arm c s) = eng s /\ log (arm c s) = log s.
Proof.
  unfold arm. destruct (waiting s) as [w|]; [destruct (c_dbg c)|]; cbn; destruct (cmds s); cbn; auto.
Qed.

Lemma pool_transmit e ok s s1 b : transmit e ok s = (s1, b) ->
  pool s1 = pool s /\ queue s1 = queue s /\ eng s1 = eng s /\ drops (log s1) = drops (log s).
Proof.
  unfold transmit. destruct (ok && opened s); [destruct (is_send e)|]; intros X; inversion X; subst; cbn; auto.
Qed.

Lemma pool_enqueue c t e a s : pool_ok c s -> pool_ok c (enqueue c t e a s).
Proof.
  unfold pool_ok, enqueue, try_queue. intros I.
  destruct (pool s) as [|p] eqn:P; [cbn; lia|].
  set (s1 := set_pool p (set_queue (queue s ++ [e]) s)).
  assert (X : pool (if a then arm c s1 else s1) = p /\ queue (if a then arm c s1 else s1) = queue s ++ [e]
           /\ eng (if a then arm c s1 else s1) = eng s /\ log (if a then arm c s1 else s1) = log s).
  { destruct a; [|auto]. destruct (pool_arm c s1) as [A [B [C D]]]. rewrite A, B, C, D. auto. }
  destruct X as [A [B [C D]]].
  destruct (e_kind e); cbn; rewrite A, B, C, D, app_length; cbn; lia.
Qed.

Lemma pool_loop c k s : pool s + length (queue s) + drops (log s) = c_cap c -> pool_ok c (loop_head k s).
Proof.
  intros I. unfold pool_ok, loop_head. destruct (queue s) as [|e q] eqn:Q; cbn in *.
  - destruct k as [[sl r]|]; cbn; rewrite Q; cbn; lia.
  - lia.
Qed.

Lemma pool_step c l s s' : pool_ok c s -> step c l s = Some s' -> pool_ok c s'.
Proof.
  intros I St. destruct l; cbn [step] in St.
  - destruct (thr s t); try discriminate. destruct (life s); try discriminate. inversion St; subst. exact I.
  - destruct (thr s t) as [|e|e|e b|e]; try discriminate. inversion St; subst. clear St.
    assert (Dir : pool_ok c (let (s1, sent) := transmit e ok (say (EvAcc e) s) in
       if sent then accept_done t e (if is_send e then s1 else set_waiting (Some (Held e)) s1) else refuse t e s)).
    { destruct (transmit e ok (say (EvAcc e) s)) as [s1 b] eqn:T. apply pool_transmit in T. cbn in T.
      destruct T as [A [B [C D]]]. unfold pool_ok in *.
      destruct b; [destruct (is_send e)|]; cbn; rewrite ?A, ?B, ?C, ?D; exact I. }
    unfold enter.
    destruct (e_kind e).
    + destruct (negb (c_fully_ordered c) && negb (c_truly_async c)); [exact Dir|].
      destruct (waiting s); [apply pool_enqueue; exact I|]. destruct (c_truly_async c); [apply pool_enqueue; exact I|exact Dir].
    + destruct (waiting s); [apply pool_enqueue; exact I|]. destruct (c_truly_async c); [apply pool_enqueue; exact I|exact Dir].
    + destruct (waiting s); [apply pool_enqueue; exact I|exact I].
  - destruct (thr s t) as [|e|e|e b|e]; try discriminate.
    destruct (transmit e ok s) as [s1 b] eqn:T. apply pool_transmit in T. inversion St; subst.
    destruct T as [A [B [C D]]]. unfold pool_ok in *. cbn. rewrite A, B, C, D. exact I.
  - destruct (thr s t) as [|e|e|e b|e]; try discriminate. inversion St; subst. unfold relock. destruct b; [exact I|].
    unfold pool_ok, refuse. destruct (queue s) eqn:Q; cbn.
    + unfold pool_ok in I. rewrite Q in *. exact I.
    + destruct (pool_arm c s) as [A [B [C D]]]. rewrite A, B, C, D. exact I.
  - destruct (thr s t) as [|e|e|e b|e]; try discriminate. destruct (existsb (is_call e) (log s)); try discriminate.
    inversion St; subst. exact I.
  - destruct (eng s) eqn:G; try discriminate. destruct (opened s); try discriminate. cbn in St.
    unfold pool_ok in I. rewrite G in I. cbn in I.
    destruct (waiting s) as [sl|]; inversion St; subst; clear St.
    + apply pool_loop. cbn. lia.
    + unfold stop_request, pool_ok. cbn. destruct (life s); cbn; rewrite G; cbn; lia.
  - destruct (eng s) eqn:G; try discriminate. destruct (cmds s); try discriminate. inversion St; subst.
    unfold pool_ok in I. rewrite G in I. cbn in I. apply pool_loop. cbn. lia.
  - unfold eng_step in St. unfold pool_ok in I. destruct (eng s) eqn:G; try discriminate; cbn in I.
    + destruct (transmit e ok s) as [s1 b] eqn:T. apply pool_transmit in T. inversion St; subst.
      destruct T as [A [B [C D]]]. unfold pool_ok. cbn. rewrite A, B, D. lia.
    + destruct (is_send e).
      * inversion St; subst. apply pool_loop. cbn. lia.
      * destruct ok0.
        { inversion St; subst. unfold pool_ok. destruct k as [[sl r]|]; cbn; lia. }
        { cbn in St. destruct (waiting s); inversion St; subst; unfold pool_ok; cbn; lia. }
    + inversion St; subst. unfold pool_ok. destruct sl; cbn; lia.
    + inversion St; subst. apply pool_loop. cbn. lia.
    + inversion St; subst. unfold pool_ok. destruct sl; cbn; lia.
    + destruct (waiting s); inversion St; subst; unfold pool_ok; cbn; lia.
    + inversion St; subst. unfold pool_ok. destruct sl; cbn; lia.
    + destruct (queue s) eqn:Q; inversion St; subst; unfold pool_ok; cbn; rewrite ?Q; cbn in *; [lia|].
      destruct (is_send e); cbn; lia.
    + inversion St; subst. unfold pool_ok. cbn. lia.
  - inversion St; subst. unfold stop_request. destruct (life s); exact I.
  - destruct (eng s) eqn:G; try discriminate. destruct (stopreq s); try discriminate. inversion St; subst.
    unfold pool_ok in *. rewrite G in I. exact I.
  - destruct (life s); try discriminate. inversion St; subst. exact I.
  - destruct (eng s) eqn:G; try discriminate. destruct (life s); try discriminate. inversion St; subst. exact I.
Qed.

(** ** Ownership of callbacks: well-behaved schedules *)

Definition uid (p : upc) : option nat :=
  match p with
  | Idle => None
  | Checked e | Transmit e | Relock e _ | WaitFor e => Some (e_id e)
  end.

Definition nodone (i : nat) (l : list ev) : Prop := forall e, In (EvDone e) l -> e_id e <> i.

Definition thr_log (l : list ev) (n : nat) (p : upc) : Prop :=
  match p with
  | Idle => True
  | Checked e => fresh (e_id e) l /\ e_id e < n
  | Transmit e | Relock e _ | WaitFor e =>
      e_kind e = KWait /\ acc (e_id e) l = true /\ refd (e_id e) l = false /\ nodone (e_id e) l /\ e_id e < n
  end.

Record base (s : state) : Prop := {
  b_ids : forall v, In v (log s) -> ment v < next s;
  b_thr : forall t, thr_log (log s) (next s) (thr s t);
  b_uniq : forall t u i, uid (thr s t) = Some i -> uid (thr s u) = Some i -> t = u;
  b_bad : bad s = false;
  b_done : forall e, In (EvDone e) (log s) -> is_send e = false ->
     acc (e_id e) (log s) = true /\ refd (e_id e) (log s) = false /\ (e_kind e = KWait -> calls (e_id e) (log s) >= 1);
  b_match : forall e r, In (EvCall e (Some r)) (log s) -> r = e_id e
}.

Lemma base_cong s s' : base s -> log s' = log s -> next s' = next s -> thr s' = thr s -> bad s' = bad s -> base s'.
Proof. intros [] L N T B. constructor; rewrite ?L, ?N, ?T, ?B; auto. Qed.

Lemma acc_cons i v l : acc i l = true -> acc i (v :: l) = true.
Proof. intros A. destruct v; cbn; auto. rewrite A. apply orb_true_r. Qed.
Definition is_refuse (v : ev) : bool := match v with EvRefuse _ => true | _ => false end.
Lemma refd_cons i v l : (is_refuse v = true -> ment v <> i) -> refd i (v :: l) = refd i l.
Proof.
  intros A. destruct v; cbn; auto. specialize (A eq_refl). cbn in A. apply Nat.eqb_neq in A. rewrite A. reflexivity.
Qed.
Lemma calls_cons i v l : calls i l <= calls i (v :: l).
Proof. destruct v; cbn; lia. Qed.
Lemma acc_in i l : acc i l = true -> exists e, In (EvAcc e) l /\ e_id e = i /\ is_send e = false.
Proof.
  induction l as [|v l IH]; cbn; [discriminate|]. intros A.
  assert (Y : acc i l = true -> exists e, (v = EvAcc e \/ In (EvAcc e) l) /\ e_id e = i /\ is_send e = false).
  { intros Z. destruct (IH Z) as [e [I [J K]]]. exists e. auto. }
  destruct v; auto. apply orb_prop in A. destruct A as [A|A]; [|auto].
  apply andb_prop in A. destruct A as [A B]. apply Nat.eqb_eq in B. exists e. split; [left; reflexivity|].
  split; [exact B|]. destruct (is_send e); [discriminate|reflexivity].
Qed.

Lemma thr_log_cons l n p v :
  thr_log l n p -> (forall i, uid p = Some i -> ment v = i ->
     match p with Checked _ => False | _ => True end /\ match v with EvRefuse _ | EvDone _ => False | _ => True end) ->
  thr_log (v :: l) n p.
Proof.
  intros T F.
  assert (G : forall e, uid p = Some (e_id e) -> match p with Checked _ => False | _ => True end ->
    e_kind e = KWait /\ acc (e_id e) l = true /\ refd (e_id e) l = false /\ nodone (e_id e) l /\ e_id e < n ->
    e_kind e = KWait /\ acc (e_id e) (v :: l) = true /\ refd (e_id e) (v :: l) = false /\ nodone (e_id e) (v :: l) /\ e_id e < n).
  { intros e U NC [K [A [R [D N]]]]. split; [exact K|]. split; [apply acc_cons; exact A|]. split; [|split; [|exact N]].
    - rewrite refd_cons; [exact R|]. intros V M. destruct (F _ U M) as [_ X]. destruct v; try discriminate. exact X.
    - intros f [E|I]; [|exact (D f I)]. intros Ei. destruct (F _ U) as [_ X]; subst v; [exact Ei|]. exact X. }
  destruct p as [|e|e|e b|e]; cbn [thr_log uid] in *; auto.
  destruct T as [A B]. split; [|exact B]. apply fresh_cons; [exact A|]. intros M. destruct (F _ eq_refl M) as [X _]. exact X.
Qed.

Lemma base_engine s v :
  base s -> (exists w, In w (log s) /\ ment w = ment v) ->
  match v with EvRefuse _ | EvDone _ => False | EvCall e (Some r) => r = e_id e | _ => True end ->
  base (say v s).
Proof.
  intros B [w [W M]] K. destruct B as [B1 B2 B3 B4 B5 B6]. constructor; cbn [log next thr bad say].
  - intros x [X|X]; [subst x; rewrite <- M; auto|auto].
  - intros t. apply thr_log_cons; [apply B2|]. intros i U Mv. specialize (B2 t). split.
    + destruct (thr s t); auto. cbn in U. inversion U; subst i. cbn in B2. destruct B2 as [F _].
      apply (F w W). congruence.
    + destruct v; auto.
  - exact B3.
  - exact B4.
  - intros e [X|X] Ns; [subst v; destruct K|]. destruct (B5 e X Ns) as [A [R C]].
    split; [apply acc_cons; exact A|]. split.
    + rewrite refd_cons; [exact R|]. destruct v; cbn; try discriminate. destruct K.
    + intros Kd. specialize (C Kd). pose proof (calls_cons (e_id e) v (log s)). lia.
  - intros e r [X|X]; [subst v; exact K|eauto].
Qed.

Lemma fresh_app i vs l : (forall v, In v vs -> ment v <> i) -> fresh i l -> fresh i (vs ++ l).
Proof. intros A F v I. apply in_app_or in I. destruct I; auto. Qed.
Lemma acc_app_other i vs l : (forall v, In v vs -> ment v <> i) -> acc i (vs ++ l) = acc i l.
Proof.
  induction vs as [|v vs IH]; cbn [app]; intros A; [reflexivity|].
  pose proof (A v (or_introl eq_refl)) as N. rewrite <- IH by (intros w W; apply A; right; exact W).
  destruct v; cbn in *; auto. apply Nat.eqb_neq in N. rewrite N, andb_false_r. reflexivity.
Qed.
Lemma refd_app_other i vs l : (forall v, In v vs -> ment v <> i) -> refd i (vs ++ l) = refd i l.
Proof.
  induction vs as [|v vs IH]; cbn [app]; intros A; [reflexivity|].
  pose proof (A v (or_introl eq_refl)) as N. rewrite <- IH by (intros w W; apply A; right; exact W).
  destruct v; cbn in *; auto. apply Nat.eqb_neq in N. rewrite N. reflexivity.
Qed.
Lemma calls_app_other i vs l : (forall v, In v vs -> ment v <> i) -> calls i (vs ++ l) = calls i l.
Proof.
  induction vs as [|v vs IH]; cbn [app]; intros A; [reflexivity|].
  pose proof (A v (or_introl eq_refl)) as N. rewrite <- IH by (intros w W; apply A; right; exact W).
  destruct v; cbn in *; auto. apply Nat.eqb_neq in N. rewrite N. reflexivity.
Qed.

Lemma base_thread s s' t i vs p :
  base s -> uid (thr s t) = Some i ->
  (forall v, In v vs -> ment v = i /\ match v with EvCall _ _ => False | _ => True end) ->
  log s' = vs ++ log s -> next s' = next s -> bad s' = bad s ->
  (forall u, thr s' u = if Nat.eqb u t then p else thr s u) ->
  thr_log (vs ++ log s) (next s) p -> (uid p = None \/ uid p = Some i) ->
  (forall e, In (EvDone e) vs -> is_send e = false ->
     acc (e_id e) (vs ++ log s) = true /\ refd (e_id e) (vs ++ log s) = false /\
     (e_kind e = KWait -> calls (e_id e) (vs ++ log s) >= 1)) ->
  base s'.
Proof.
  intros B U V L N Bd T P Up D. pose proof B as [B1 B2 B3 B4 B5 B6].
  assert (Oth : forall j, j <> i -> forall v, In v vs -> ment v <> j).
  { intros j J v I. destruct (V v I) as [X _]. congruence. }
  assert (Lt : i < next s).
  { specialize (B2 t). destruct (thr s t); cbn in *; try discriminate; inversion U; subst; intuition auto. }
  assert (Nd : nodone i (log s)).
  { specialize (B2 t). destruct (thr s t); cbn in *; try discriminate; inversion U; subst; try tauto.
    destruct B2 as [F _]. intros f I. exact (F _ I). }
  constructor; rewrite ?L, ?N, ?Bd.
  - intros v I. apply in_app_or in I. destruct I as [I|I]; [destruct (V v I) as [X _]; lia|auto].
  - intros u. rewrite T. destruct (Nat.eqb_spec u t) as [E|E]; [exact P|].
    specialize (B2 u).
    assert (Ne : forall j, uid (thr s u) = Some j -> j <> i).
    { intros j J X. subst j. apply E. exact (B3 _ _ _ J U). }
    assert (G : forall e, uid (thr s u) = Some (e_id e) ->
      e_kind e = KWait /\ acc (e_id e) (log s) = true /\ refd (e_id e) (log s) = false /\ nodone (e_id e) (log s) /\ e_id e < next s ->
      e_kind e = KWait /\ acc (e_id e) (vs ++ log s) = true /\ refd (e_id e) (vs ++ log s) = false
      /\ nodone (e_id e) (vs ++ log s) /\ e_id e < next s).
    { intros e Ue [K [A [R [Dn Nx]]]]. specialize (Ne _ Ue). specialize (Oth _ Ne).
      rewrite acc_app_other, refd_app_other by exact Oth. split; [exact K|]. split; [exact A|]. split; [exact R|].
      split; [|exact Nx]. intros f I. apply in_app_or in I. destruct I as [I|I]; [|exact (Dn f I)].
      exact (Oth _ I). }
    destruct (thr s u) as [|e|e|e b|e]; cbn [thr_log uid] in *; auto.
    destruct B2 as [F X]. split; [|exact X]. apply fresh_app; [|exact F]. apply Oth. apply Ne. reflexivity.
  - intros u w j. rewrite !T. destruct (Nat.eqb_spec u t) as [E|E]; destruct (Nat.eqb_spec w t) as [E'|E']; subst.
    + auto.
    + intros X Y. exfalso. destruct Up as [Up|Up]; rewrite Up in X; [discriminate|]. inversion X; subst.
      apply E'. exact (B3 _ _ _ Y U).
    + intros X Y. exfalso. destruct Up as [Up|Up]; rewrite Up in Y; [discriminate|]. inversion Y; subst.
      apply E. exact (B3 _ _ _ X U).
    + apply B3.
  - exact B4.
  - intros e I Ns. apply in_app_or in I. destruct I as [I|I]; [exact (D e I Ns)|].
    pose proof (Oth _ (Nd e I)) as O. rewrite acc_app_other, refd_app_other, calls_app_other by exact O. exact (B5 e I Ns).
  - intros e r I. apply in_app_or in I. destruct I as [I|I]; [destruct (V _ I) as [_ X]; destruct X|eauto].
Qed.

Definition tx (p : upc) : option entry :=
  match p with Transmit e | Relock e false => Some e | _ => None end.
Definition calm (g : epc) : Prop := match g with EIdle | ECall _ _ => True | _ => False end.
Definition cont_ok (k : cont) : Prop :=
  match k with None => True | Some (sl, r) => exists e, sl = Held e /\ r = e_id e end.
Definition eng_entry (g : epc) : option entry :=
  match g with ESending e _ | ESent e _ _ | EStopCallQ e => Some e | _ => None end.
Definition late_ok (c : cfg) (p : upc) : Prop :=
  match p with
  | Checked e => e_kind e <> KWait /\ c_truly_async c = false
  | Transmit _ | Relock _ false => False
  | _ => True
  end.

Record idle_ok (s : state) : Prop := {
  d_none : waiting s = None -> queue s = [] /\ owed s = [] /\ cmds s = 0;
  d_ph : waiting s = Some Placeholder -> queue s <> [] /\ owed s = [] /\ cmds s = 1;
  d_held : forall e, waiting s = Some (Held e) ->
     cmds s = 0 /\ (owed s = [e_id e] \/ (owed s = [] /\ exists t, tx (thr s t) = Some e));
  d_closed : opened s = false -> waiting s = None
}.

Definition eng_ok (s : state) : Prop :=
  match eng s with
  | EIdle => idle_ok s
  | ECall sl r => (exists e, sl = Held e /\ r = e_id e) /\ idle_ok s
  | ESending e k => cont_ok k /\ waiting s = Some (slot_of e) /\ owed s = [] /\ cmds s = 0 /\ opened s = true
  | ESent e ok k => cont_ok k /\ waiting s = Some (slot_of e) /\ cmds s = 0 /\ opened s = true /\
      owed s = (if ok && negb (is_send e) then [e_id e] else [])
  | ECallErr sl k => cont_ok k /\ (exists e, sl = Held e) /\ waiting s = Some Placeholder /\ owed s = [] /\ cmds s = 0 /\ opened s = true
  | ERelock k => cont_ok k /\ waiting s = Some Placeholder /\ owed s = [] /\ cmds s = 0 /\ opened s = true
  | EStopTake => opened s = false
  | EStopCall _ | EStopLoop => opened s = false /\ waiting s = None
  | EStopCallQ e => is_send e = false /\ opened s = false /\ waiting s = None
  end.

Record inv (c : cfg) (s : state) : Prop := {
  v_base : base s;
  v_cnt : forall i, held s i + calls i (log s) = b2n (acc i (log s) && negb (refd i (log s)));
  v_tx : forall t e, tx (thr s t) = Some e ->
     waiting s = Some (Held e) /\ owed s = [] /\ cmds s = 0 /\ opened s = true /\ calm (eng s);
  v_closed : opened s = false ->
     owed s = [] /\ cmds s = 0 /\ life s <> Ready /\ forall t, late_ok c (thr s t);
  v_eng : eng_ok s;
  v_life : (life s = Stopped -> eng s = EIdle /\ opened s = false) /\
           (life s = Starting -> eng s = EIdle /\ opened s = false) /\ (stopreq s = true -> life s = Stopping) /\
           (calm (eng s) \/ (life s = Stopping /\ stopreq s = false) \/ opened s = true);
  v_acc : forall e, In e (queue s) \/ eng_entry (eng s) = Some e -> In (EvAcc e) (log s)
}.

(** Well-behaved environment: the server answers only requests it received; the connection is torn down only while
    no SendWaitReply call is between its state check and its wait, and with truly asynchronous sending while no send
    call is between its state check and its return.  In a build with debug assertions no transmission of
    SendWaitReply fails while messages are queued. *)
Definition polite (c : cfg) (l : label) (s : state) : Prop :=
  match l with
  | LReply r => In r (owed s)
  | LStop => forall t, late_ok c (thr s t)
  | LRelock t => c_dbg c = true -> match thr s t with Relock _ false => queue s = [] | _ => True end
  | _ => True
  end.

Lemma acc_ev_in e l : In (EvAcc e) l -> is_send e = false -> acc (e_id e) l = true.
Proof.
  induction l as [|v l IH]; [intros []|]. intros [X|X] N.
  - subst v. cbn. rewrite N, Nat.eqb_refl. reflexivity.
  - apply acc_cons. auto.
Qed.

Lemma arm_eq c s : (waiting s = None \/ c_dbg c = false) -> cmds s = 0 ->
  arm c s = set_cmds 1 (set_waiting (Some Placeholder) s).
Proof.
  intros W C. unfold arm. destruct s as [p q w o l st cm ow th g lg nx bd]. cbn in *. subst cm.
  destruct w as [sl|]; [destruct W as [W|W]; [discriminate|rewrite W]|]; reflexivity.
Qed.

Lemma transmit_eq e ok s s1 b : transmit e ok s = (s1, b) ->
  (b = true /\ opened s = true /\ s1 = say (EvWire e) (if is_send e then s else set_owed (owed s ++ [e_id e]) s))
  \/ (b = false /\ s1 = say (EvLost e) s).
Proof.
  unfold transmit. destruct ok, (opened s); cbn; intros X; inversion X; subst; auto.
Qed.

Lemma slot_cnt e i : cnt i (sid (slot_of e)) = cnt i (eid e).
Proof. unfold slot_of, eid. destruct (is_send e); reflexivity. Qed.

Lemma qid_snoc i q e : cnt i (qid (q ++ [e])) = cnt i (qid q) + cnt i (eid e).
Proof. unfold qid. rewrite flat_map_app, cnt_app. cbn. rewrite app_nil_r. reflexivity. Qed.

Lemma qid_cons i q e : cnt i (qid (e :: q)) = cnt i (eid e) + cnt i (qid q).
Proof. unfold qid. cbn. apply cnt_app. Qed.

(** Invariant at the head of the queue loop. *)
Lemma inv_loop c k s :
  base s -> waiting s = None -> owed s = [] -> cmds s = 0 -> opened s = true -> cont_ok k ->
  (forall t, tx (thr s t) = None) ->
  (forall i, cnt i (qid (queue s)) + cnt i (kid k) + calls i (log s) = b2n (acc i (log s) && negb (refd i (log s)))) ->
  life s <> Stopped -> life s <> Starting -> (stopreq s = true -> life s = Stopping) ->
  (forall e, In e (queue s) -> In (EvAcc e) (log s)) ->
  inv c (loop_head k s).
Proof.
  intros B W O C Op K T N L1 L2 L3 Q. unfold loop_head. destruct (queue s) as [|e q] eqn:Eq.
  - assert (I : idle_ok s).
    { constructor; rewrite ?W, ?Eq, ?O, ?C; intros; try discriminate; auto. }
    assert (Fin : forall g, (g = EIdle /\ k = None \/ exists sl r, g = ECall sl r /\ k = Some (sl, r)) -> inv c (set_eng g s)).
    { intros g G. constructor; cbn.
      - apply (base_cong s); auto.
      - intros i. unfold held. cbn. rewrite Eq, W. specialize (N i). cbn in *.
        destruct G as [[G1 G2]|[sl [r [G1 G2]]]]; subst; cbn in *; lia.
      - intros t e X. rewrite T in X. discriminate.
      - intros X. rewrite Op in X. discriminate.
      - assert (I' : idle_ok (set_eng g s)).
        { destruct I as [I1 I2 I3 I4]. constructor; cbn; assumption. }
        unfold eng_ok. cbn. destruct G as [[G1 G2]|[sl [r [G1 G2]]]]; subst; [exact I'|].
        cbn in K. split; [exact K|exact I'].
      - split; [intros X; contradiction|]. split; [intros X; contradiction|]. split; [exact L3|]. right. right. exact Op.
      - intros f [X|X]; [rewrite Eq in X; destruct X|].
        destruct G as [[G1 G2]|[sl [r [G1 G2]]]]; subst; discriminate. }
    unfold finish. destruct k as [[sl r]|]; apply Fin; [right; eauto|left; auto].
  - constructor; cbn.
    + apply (base_cong s); auto.
    + intros i. unfold held. cbn. specialize (N i). unfold qid in N. cbn in N. rewrite cnt_app in N.
      rewrite slot_cnt. unfold qid. lia.
    + intros t f X. rewrite T in X. discriminate.
    + intros X. rewrite Op in X. discriminate.
    + unfold eng_ok. cbn. auto.
    + split; [intros X; contradiction|]. split; [intros X; contradiction|]. split; [exact L3|]. right. right. exact Op.
    + intros f [X|X]; [apply Q; right; exact X|]. inversion X; subst. apply Q. left. reflexivity.
Qed.

Lemma new_acc i e l : fresh (e_id e) l ->
  b2n (acc i (EvAcc e :: l) && negb (refd i l)) = b2n (acc i l && negb (refd i l)) + cnt i (eid e).
Proof.
  intros F. cbn [acc]. unfold eid. destruct (is_send e); cbn [negb andb orb cnt]; [lia|].
  destruct (Nat.eqb_spec (e_id e) i) as [E|E]; cbn [orb andb].
  - subst i. rewrite (fresh_acc _ _ F), (fresh_refd _ _ F). reflexivity.
  - lia.
Qed.

Lemma late_upd c s t p : (forall u, late_ok c (thr s u)) -> late_ok c p ->
  forall u, late_ok c (if Nat.eqb u t then p else thr s u).
Proof. intros A B u. destruct (Nat.eqb u t); auto. Qed.

(** The call takes a place at the end of the queue. *)
Lemma inv_enqueue c t e (a : bool) s :
  inv c s -> thr s t = Checked e ->
  (if a then waiting s = None /\ opened s = true /\ calm (eng s) else waiting s <> None) ->
  inv c (enqueue c t e a s).
Proof.
  intros I T A. destruct I as [B N X C G L Q].
  pose proof (b_thr _ B t) as Tl. rewrite T in Tl. cbn in Tl. destruct Tl as [Fr Lt].
  unfold enqueue, try_queue. destruct (pool s) as [|p] eqn:P.
  - (* refused *)
    constructor; cbn.
    + apply (base_thread s _ t (e_id e) [EvRefuse e] Idle B); cbn; try reflexivity; try exact Logic.I.
      * rewrite T. reflexivity.
      * intros v [V|[]]. subst v. auto.
      * left. reflexivity.
      * intros f [V|[]]. discriminate.
    + intros i. change (held s i + calls i (log s) = b2n (acc i (log s) && negb (Nat.eqb (e_id e) i || refd i (log s)))).
      rewrite N. destruct (Nat.eqb_spec (e_id e) i) as [E|E]; [|reflexivity]. subst i. rewrite (fresh_acc _ _ Fr). reflexivity.
    + intros u f. destruct (Nat.eqb u t); [discriminate|]. apply X.
    + intros O. destruct (C O) as [C1 [C2 [C3 C4]]]. split; [exact C1|]. split; [exact C2|]. split; [exact C3|].
      apply late_upd; [exact C4|exact Logic.I].
    + unfold eng_ok, refuse in *. cbn.
      assert (Ih : idle_ok s -> idle_ok (set_thr t Idle (say (EvRefuse e) s))).
      { intros [I1 I2 I3 I4]. constructor; cbn; auto. intros f Wf. destruct (I3 f Wf) as [Y [Z|[Z [u U]]]]; split; auto.
        right. split; [exact Z|]. exists u. destruct (Nat.eqb_spec u t) as [E|E]; [subst u; rewrite T in U; discriminate|exact U]. }
      destruct (eng s); try exact G; [apply Ih; exact G|]. destruct G as [G1 G2]. split; [exact G1|apply Ih; exact G2].
    + exact L.
    + intros f F. right. apply Q. exact F.
  - set (s1 := set_pool p (set_queue (queue s ++ [e]) s)).
    set (w' := if a then Some Placeholder else waiting s).
    set (c' := if a then 1 else cmds s).
    assert (Cm : a = true -> cmds s = 0 /\ owed s = [] /\ queue s = []).
    { intros ->. destruct A as [A1 [A2 A3]]. unfold eng_ok in G.
      assert (Id : idle_ok s) by (destruct (eng s); try destruct A3; [exact G|destruct G; assumption]).
      destruct (d_none _ Id A1) as [Y1 [Y2 Y3]]. auto. }
    assert (S2 : (if a then arm c s1 else s1) =
                 mkS p (queue s ++ [e]) w' (opened s) (life s) (stopreq s) c' (owed s) (thr s) (eng s) (log s) (next s) (bad s)).
    { unfold w', c'. destruct a; [|reflexivity]. destruct A as [A1 _]. destruct (Cm eq_refl) as [C0 _].
      rewrite arm_eq; [reflexivity|left; exact A1|exact C0]. }
    rewrite S2.
    set (pc' := match e_kind e with KWait => WaitFor e | _ => Idle end).
    set (vs := match e_kind e with KWait => [EvAcc e] | _ => [EvDone e; EvAcc e] end).
    assert (Sx : (match e_kind e with
      | KWait => set_thr t (WaitFor e) (say (EvAcc e) (mkS p (queue s ++ [e]) w' (opened s) (life s) (stopreq s) c' (owed s) (thr s) (eng s) (log s) (next s) (bad s)))
      | _ => accept_done t e (say (EvAcc e) (mkS p (queue s ++ [e]) w' (opened s) (life s) (stopreq s) c' (owed s) (thr s) (eng s) (log s) (next s) (bad s)))
      end) = mkS p (queue s ++ [e]) w' (opened s) (life s) (stopreq s) c' (owed s)
               (fun u => if Nat.eqb u t then pc' else thr s u) (eng s) (vs ++ log s) (next s) (bad s)).
    { unfold pc', vs. destruct (e_kind e); reflexivity. }
    rewrite Sx. clear Sx S2.
    assert (Ac : forall i, b2n (acc i (vs ++ log s) && negb (refd i (vs ++ log s))) =
                   b2n (acc i (log s) && negb (refd i (log s))) + cnt i (eid e)).
    { intros i. rewrite <- (new_acc i e _ Fr). unfold vs. destruct (e_kind e); reflexivity. }
    assert (Ca : forall i, calls i (vs ++ log s) = calls i (log s)) by (intros i; unfold vs; destruct (e_kind e); reflexivity).
    assert (Ia : In (EvAcc e) (vs ++ log s)) by (unfold vs; destruct (e_kind e); cbn; auto).
    assert (Iv : forall v, In v (log s) -> In v (vs ++ log s)) by (intros v Hv; apply in_or_app; right; exact Hv).
    assert (Tu : tx pc' = None) by (unfold pc'; destruct (e_kind e); reflexivity).
    assert (Aw : forall f, w' = Some (Held f) -> a = false /\ waiting s = Some (Held f)).
    { intros f. unfold w'. destruct a; [discriminate|auto]. }
    assert (Idl : calm (eng s) -> idle_ok s -> idle_ok (mkS p (queue s ++ [e]) w' (opened s) (life s) (stopreq s) c' (owed s)
               (fun u => if Nat.eqb u t then pc' else thr s u) (eng s) (vs ++ log s) (next s) (bad s))).
    { intros Ce [I1 I2 I3 I4]. constructor; cbn.
      - unfold w'. destruct a; [discriminate|]. intros W. contradiction.
      - intros W. split; [destruct (queue s); discriminate|]. unfold w', c' in *. destruct a.
        + destruct (Cm eq_refl) as [Y [Z _]]. auto.
        + destruct (I2 W) as [_ Y]. exact Y.
      - intros f W. destruct (Aw f W) as [Ea W']. unfold c'. rewrite Ea.
        destruct (I3 f W') as [Y [Z|[Z [u U]]]]; split; auto. right. split; [exact Z|]. exists u.
        destruct (Nat.eqb_spec u t) as [E|E]; [subst u; rewrite T in U; discriminate|exact U].
      - intros O. specialize (I4 O). unfold w'. destruct a; [|exact I4]. destruct A as [_ [A2 _]]. rewrite O in A2. discriminate. }
    constructor; cbn.
    + apply (base_thread s _ t (e_id e) vs pc' B); cbn; try reflexivity; try exact Logic.I.
      * rewrite T. reflexivity.
      * intros v. unfold vs. destruct (e_kind e); cbn; intros Hv; repeat destruct Hv as [Hv|Hv]; subst; auto; destruct Hv.
      * unfold pc', vs. destruct (e_kind e) eqn:K; cbn; auto.
        split; [exact K|]. split; [|split; [exact (fresh_refd _ _ Fr)|split; [|exact Lt]]].
        { unfold is_send. rewrite K, Nat.eqb_refl. reflexivity. }
        { intros f [Hf|Hf]; [discriminate|exact (Fr _ Hf)]. }
      * unfold pc'. destruct (e_kind e); cbn; auto.
      * intros f Hf Ns. unfold vs in *. destruct (e_kind e) eqn:K; cbn in Hf.
        { destruct Hf as [Hf|[Hf|[]]]; [|discriminate]. inversion Hf; subst f. unfold is_send in Ns. rewrite K in Ns. discriminate. }
        { destruct Hf as [Hf|[Hf|[]]]; [|discriminate]. inversion Hf; subst f. split; [|split].
          - cbn. rewrite Ns, Nat.eqb_refl. reflexivity.
          - cbn. exact (fresh_refd _ _ Fr).
          - rewrite K. discriminate. }
        { destruct Hf as [Hf|[]]. discriminate. }
    + intros i. unfold held. cbn. rewrite qid_snoc, Ac, Ca. specialize (N i). unfold held in N.
      assert (cnt i (wid w') = cnt i (wid (waiting s))) by (unfold w'; destruct a; [destruct A as [A1 _]; rewrite A1|]; reflexivity).
      lia.
    + intros u f U. destruct (Nat.eqb_spec u t) as [E|E]; [rewrite Tu in U; discriminate|].
      destruct (X u f U) as [X1 [X2 [X3 [X4 X5]]]]. unfold w', c'.
      destruct a; [destruct A as [A1 _]; rewrite A1 in X1; discriminate|auto].
    + intros O. destruct (C O) as [C1 [C2 [C3 C4]]]. unfold c'.
      destruct a; [destruct A as [_ [A2 _]]; rewrite O in A2; discriminate|].
      split; [exact C1|]. split; [exact C2|]. split; [exact C3|].
      apply late_upd; [exact C4|]. unfold pc'. destruct (e_kind e); exact Logic.I.
    + unfold eng_ok in *. cbn. destruct (eng s) eqn:Eg.
      1: apply Idl; [exact Logic.I|exact G].
      5: destruct G as [G1 G2]; split; [exact G1|]; apply Idl; [exact Logic.I|exact G2].
      all: cbn in *; unfold w', c'; destruct a; [destruct A as [_ [_ A3]]; destruct A3|exact G].
    + exact L.
    + intros f [F|F]; [apply in_app_or in F; destruct F as [F|[F|[]]]|]; [apply Iv; apply Q; auto|subst f; exact Ia|apply Iv; apply Q; auto].
Qed.

Lemma calm_of c s : inv c s -> waiting s = None -> opened s = true -> calm (eng s).
Proof.
  intros I W O. pose proof (v_eng _ _ I) as G. unfold eng_ok in G.
  destruct (eng s); cbn; auto; rewrite ?W, ?O in G.
  - destruct G as [_ [X _]]. discriminate.
  - destruct G as [_ [X _]]. discriminate.
  - destruct G as [_ [_ [X _]]]. discriminate.
  - destruct G as [_ [X _]]. discriminate.
  - discriminate.
  - destruct G as [X _]. discriminate.
  - destruct G as [X _]. discriminate.
  - destruct G as [_ [X _]]. discriminate.
Qed.

Lemma idle_of c s : inv c s -> calm (eng s) -> idle_ok s.
Proof.
  intros I G. pose proof (v_eng _ _ I) as E. unfold eng_ok in E. destruct (eng s); try destruct G; [exact E|apply E].
Qed.

(** Steps that touch neither the queue nor the pending reply. *)
Lemma idle_thr s t p l : (forall e, tx (thr s t) = Some e -> tx p = Some e) -> idle_ok s ->
  idle_ok (mkS (pool s) (queue s) (waiting s) (opened s) (life s) (stopreq s) (cmds s) (owed s)
     (fun u => if Nat.eqb u t then p else thr s u) (eng s) l (next s) (bad s)).
Proof.
  intros P [I1 I2 I3 I4]. constructor; cbn; auto. intros f Wf. destruct (I3 f Wf) as [Y [Z|[Z [u U]]]]; split; auto.
  right. split; [exact Z|]. exists u. destruct (Nat.eqb_spec u t) as [E|E]; [subst u; auto|exact U].
Qed.

Lemma eng_thr s t p l : (forall e, tx (thr s t) = Some e -> tx p = Some e) -> eng_ok s ->
  eng_ok (mkS (pool s) (queue s) (waiting s) (opened s) (life s) (stopreq s) (cmds s) (owed s)
     (fun u => if Nat.eqb u t then p else thr s u) (eng s) l (next s) (bad s)).
Proof.
  intros P G. unfold eng_ok in *. cbn. pose proof (idle_thr s t p l P) as I.
  destruct (eng s); auto. destruct G as [G1 G2]. split; [exact G1|]. auto.
Qed.

Lemma inv_refuse c t e s : inv c s -> thr s t = Checked e -> inv c (refuse t e s).
Proof.
  intros I T. destruct I as [B N X C G L Q].
  pose proof (b_thr _ B t) as Tl. rewrite T in Tl. cbn in Tl. destruct Tl as [Fr Lt].
  constructor; cbn.
  - apply (base_thread s _ t (e_id e) [EvRefuse e] Idle B); cbn; try reflexivity; try exact Logic.I.
    + rewrite T. reflexivity.
    + intros v [V|[]]. subst v. auto.
    + left. reflexivity.
    + intros f [V|[]]. discriminate.
  - intros i. change (held s i + calls i (log s) = b2n (acc i (log s) && negb (Nat.eqb (e_id e) i || refd i (log s)))).
    rewrite N. destruct (Nat.eqb_spec (e_id e) i) as [E|E]; [|reflexivity]. subst i. rewrite (fresh_acc _ _ Fr). reflexivity.
  - intros u f. destruct (Nat.eqb u t); [discriminate|]. apply X.
  - intros O. destruct (C O) as [C1 [C2 [C3 C4]]]. split; [exact C1|]. split; [exact C2|]. split; [exact C3|].
    apply late_upd; [exact C4|exact Logic.I].
  - refine (eng_thr s t Idle _ _ G); rewrite T; discriminate.
  - exact L.
  - intros f F. right. apply Q. exact F.
Qed.

Lemma inv_direct_send c t e s : inv c s -> thr s t = Checked e -> is_send e = true ->
  inv c (accept_done t e (say (EvWire e) (say (EvAcc e) s))).
Proof.
  intros I T K. destruct I as [B N X C G L Q].
  pose proof (b_thr _ B t) as Tl. rewrite T in Tl. cbn in Tl. destruct Tl as [Fr Lt].
  constructor; cbn.
  - apply (base_thread s _ t (e_id e) [EvDone e; EvWire e; EvAcc e] Idle B); cbn; try reflexivity; try exact Logic.I.
    + rewrite T. reflexivity.
    + intros v V. repeat destruct V as [V|V]; subst; auto. destruct V.
    + left. reflexivity.
    + intros f V Ns. repeat destruct V as [V|V]; try discriminate; [inversion V; subst; congruence|destruct V].
  - intros i. change (held s i + calls i (log s) = b2n (((negb (is_send e) && Nat.eqb (e_id e) i) || acc i (log s)) && negb (refd i (log s)))).
    rewrite K. cbn. apply N.
  - intros u f. destruct (Nat.eqb u t); [discriminate|]. apply X.
  - intros O. destruct (C O) as [C1 [C2 [C3 C4]]]. split; [exact C1|]. split; [exact C2|]. split; [exact C3|].
    apply late_upd; [exact C4|exact Logic.I].
  - refine (eng_thr s t Idle _ _ G); rewrite T; discriminate.
  - exact L.
  - intros f F. do 3 right. apply Q. exact F.
Qed.

Lemma inv_direct_cb c t e s : inv c s -> thr s t = Checked e -> e_kind e = KCb -> waiting s = None -> opened s = true ->
  inv c (accept_done t e (set_waiting (Some (Held e)) (say (EvWire e) (set_owed (owed s ++ [e_id e]) (say (EvAcc e) s))))).
Proof.
  intros I T K W O. pose proof (calm_of c s I W O) as Cm. pose proof (idle_of c s I Cm) as Id.
  destruct (d_none _ Id W) as [Qe [Oe Ce]].
  destruct I as [B N X C G L Q].
  pose proof (b_thr _ B t) as Tl. rewrite T in Tl. cbn in Tl. destruct Tl as [Fr Lt].
  assert (Ns : is_send e = false) by (unfold is_send; rewrite K; reflexivity).
  constructor; cbn.
  - apply (base_thread s _ t (e_id e) [EvDone e; EvWire e; EvAcc e] Idle B); cbn; try reflexivity; try exact Logic.I.
    + rewrite T. reflexivity.
    + intros v V. repeat destruct V as [V|V]; subst; auto. destruct V.
    + left. reflexivity.
    + intros f V _. repeat destruct V as [V|V]; try discriminate; [inversion V; subst|destruct V].
      rewrite Ns, Nat.eqb_refl. split; [reflexivity|]. split; [exact (fresh_refd _ _ Fr)|]. rewrite K. discriminate.
  - intros i. pose proof (new_acc i e _ Fr) as Na. unfold held. cbn.
    change (cnt i (qid (queue s)) + ((if Nat.eqb (e_id e) i then 1 else 0) + 0) + cnt i (gid (eng s)) + calls i (log s)
       = b2n (acc i (EvAcc e :: log s) && negb (refd i (log s)))).
    rewrite Na. unfold eid. rewrite Ns. cbn. specialize (N i). unfold held in N. rewrite W in N. cbn in N. lia.
  - intros u f U. destruct (Nat.eqb_spec u t) as [E|E]; [discriminate|]. destruct (X u f U) as [X1 _]. congruence.
  - intros O'. congruence.
  - assert (I' : idle_ok (accept_done t e (set_waiting (Some (Held e)) (say (EvWire e) (set_owed (owed s ++ [e_id e]) (say (EvAcc e) s)))))).
    { constructor; cbn; try discriminate; [|intros; congruence].
      intros f F. inversion F; subst f. rewrite Oe. cbn. auto. }
    unfold eng_ok. cbn. unfold eng_ok in G. destruct (eng s); try destruct Cm; [exact I'|].
    destruct G as [G1 G2]. split; [exact G1|exact I'].
  - exact L.
  - intros f F. do 3 right. apply Q. exact F.
Qed.

Lemma inv_begin_wait c t e s : inv c s -> thr s t = Checked e -> e_kind e = KWait -> waiting s = None -> opened s = true ->
  inv c (set_thr t (Transmit e) (say (EvAcc e) (set_waiting (Some (Held e)) s))).
Proof.
  intros I T K W O. pose proof (calm_of c s I W O) as Cm. pose proof (idle_of c s I Cm) as Id.
  destruct (d_none _ Id W) as [Qe [Oe Ce]].
  destruct I as [B N X C G L Q].
  pose proof (b_thr _ B t) as Tl. rewrite T in Tl. cbn in Tl. destruct Tl as [Fr Lt].
  assert (Ns : is_send e = false) by (unfold is_send; rewrite K; reflexivity).
  constructor; cbn.
  - apply (base_thread s _ t (e_id e) [EvAcc e] (Transmit e) B); cbn; try reflexivity; try exact Logic.I.
    + rewrite T. reflexivity.
    + intros v V. repeat destruct V as [V|V]; subst; auto. destruct V.
    + rewrite Ns, Nat.eqb_refl. split; [exact K|]. split; [reflexivity|]. split; [exact (fresh_refd _ _ Fr)|].
      split; [|exact Lt]. intros f [V|V]; [discriminate|exact (Fr _ V)].
    + right. reflexivity.
    + intros f [V|[]]. discriminate.
  - intros i. pose proof (new_acc i e _ Fr) as Na. unfold held. cbn.
    change (cnt i (qid (queue s)) + ((if Nat.eqb (e_id e) i then 1 else 0) + 0) + cnt i (gid (eng s)) + calls i (log s)
       = b2n (acc i (EvAcc e :: log s) && negb (refd i (log s)))).
    rewrite Na. unfold eid. rewrite Ns. cbn. specialize (N i). unfold held in N. rewrite W in N. cbn in N. lia.
  - intros u f U. destruct (Nat.eqb_spec u t) as [E|E].
    + inversion U; subst f. auto.
    + destruct (X u f U) as [X1 _]. congruence.
  - intros O'. congruence.
  - assert (I' : idle_ok (set_thr t (Transmit e) (say (EvAcc e) (set_waiting (Some (Held e)) s)))).
    { constructor; cbn; try discriminate; [|intros; congruence].
      intros f F. inversion F; subst f. split; [exact Ce|]. right. split; [exact Oe|]. exists t. rewrite Nat.eqb_refl. reflexivity. }
    unfold eng_ok. cbn. unfold eng_ok in G. destruct (eng s); try destruct Cm; [exact I'|].
    destruct G as [G1 G2]. split; [exact G1|exact I'].
  - exact L.
  - intros f F. right. apply Q. exact F.
Qed.

Lemma inv_enter c t e ok s : inv c s -> thr s t = Checked e -> inv c (enter c t e ok s).
Proof.
  intros I T.
  assert (Op : waiting s = None -> opened s = true \/ (opened s = false /\ e_kind e <> KWait /\ c_truly_async c = false)).
  { intros W. destruct (opened s) eqn:O; [left; reflexivity|right]. split; [reflexivity|].
    destruct (v_closed _ _ I O) as [_ [_ [_ L]]]. specialize (L t). rewrite T in L. exact L. }
  assert (Dir : (is_send e = true \/ (e_kind e = KCb /\ waiting s = None)) ->
    inv c (let (s1, sent) := transmit e ok (say (EvAcc e) s) in
       if sent then accept_done t e (if is_send e then s1 else set_waiting (Some (Held e)) s1) else refuse t e s)).
  { intros D. destruct (transmit e ok (say (EvAcc e) s)) as [s1 b] eqn:Tr. apply transmit_eq in Tr.
    destruct Tr as [[Eb [O Es]]|[Eb Es]]; subst b s1; [|apply inv_refuse; assumption].
    destruct D as [D|[D W]].
    - rewrite D. apply inv_direct_send; assumption.
    - assert (Ns : is_send e = false) by (unfold is_send; rewrite D; reflexivity). rewrite Ns.
      exact (inv_direct_cb c t e s I T D W O). }
  assert (Arm : waiting s = None -> c_truly_async c = true -> inv c (enqueue c t e true s)).
  { intros W Ta. apply inv_enqueue; [exact I|exact T|]. destruct (Op W) as [O|[_ [_ X]]]; [|congruence].
    split; [exact W|]. split; [exact O|]. exact (calm_of c s I W O). }
  unfold enter. destruct (e_kind e) eqn:K.
  - assert (S : is_send e = true) by (unfold is_send; rewrite K; reflexivity).
    destruct (negb (c_fully_ordered c) && negb (c_truly_async c)); [apply Dir; auto|].
    destruct (waiting s) eqn:W; [apply inv_enqueue; auto; rewrite W; discriminate|].
    destruct (c_truly_async c) eqn:Ta; auto.
  - destruct (waiting s) eqn:W; [apply inv_enqueue; auto; rewrite W; discriminate|].
    destruct (c_truly_async c) eqn:Ta; auto.
  - destruct (waiting s) eqn:W; [apply inv_enqueue; auto; rewrite W; discriminate|].
    apply inv_begin_wait; auto. destruct (Op eq_refl) as [O|[_ [X _]]]; [exact O|contradiction].
Qed.

Lemma inv_begin c t k s : inv c s -> thr s t = Idle -> life s = Ready ->
  inv c (set_thr t (Checked (mkE (next s) k)) (set_next (S (next s)) s)).
Proof.
  intros I T Lf. destruct I as [B N X C G L Q]. destruct B as [B1 B2 B3 B4 B5 B6].
  assert (Fr : fresh (next s) (log s)) by (intros v V E; specialize (B1 v V); lia).
  constructor; cbn.
  - constructor; cbn; auto.
    + intros v V. specialize (B1 v V). lia.
    + intros u. destruct (Nat.eqb u t); [cbn; auto|]. specialize (B2 u).
      destruct (thr s u); cbn in *; auto; intuition lia.
    + intros u w i. destruct (Nat.eqb_spec u t) as [E|E]; destruct (Nat.eqb_spec w t) as [E'|E']; subst; cbn; auto.
      * intros X1 X2. exfalso. inversion X1; subst i. specialize (B2 w). destruct (thr s w); cbn in *; try discriminate;
          inversion X2; destruct B2 as [Y Z]; repeat (destruct Z as [? Z]); lia.
      * intros X2 X1. exfalso. inversion X1; subst i. specialize (B2 u). destruct (thr s u); cbn in *; try discriminate;
          inversion X2; destruct B2 as [Y Z]; repeat (destruct Z as [? Z]); lia.
      * apply B3.
  - exact N.
  - intros u f. destruct (Nat.eqb u t); [discriminate|apply X].
  - intros O. destruct (C O) as [_ [_ [C3 _]]]. contradiction.
  - refine (eng_thr (set_next (S (next s)) s) t _ _ _ _); cbn; [rewrite T; discriminate|].
    unfold eng_ok in *. cbn. assert (J : idle_ok s -> idle_ok (set_next (S (next s)) s)) by (intros []; constructor; cbn; auto).
    destruct (eng s); auto. destruct G; auto.
  - exact L.
  - exact Q.
Qed.

Lemma inv_tsend c t e ok s s1 b : inv c s -> thr s t = Transmit e -> transmit e ok s = (s1, b) ->
  inv c (set_thr t (Relock e b) s1).
Proof.
  intros I T Tr. destruct I as [B N X C G L Q].
  destruct (X t e) as [X1 [X2 [X3 [X4 X5]]]]; [rewrite T; reflexivity|].
  pose proof (b_thr _ B t) as Tl. rewrite T in Tl. cbn in Tl. destruct Tl as [K [A [R [D Lt]]]].
  assert (Ns : is_send e = false) by (unfold is_send; rewrite K; reflexivity).
  assert (Idp : calm (eng s) -> idle_ok s) by (intros _; unfold eng_ok in G; destruct (eng s); try destruct X5; [exact G|apply G]).
  assert (Oth : forall u f, u <> t -> tx (thr s u) = Some f -> False).
  { intros u f E U. destruct (X u f U) as [Y _]. rewrite X1 in Y. inversion Y; subst f. apply E.
    apply (b_uniq _ B u t (e_id e)); [|rewrite T; reflexivity].
    destruct (thr s u) as [|g|g|g [|]|g]; cbn in *; try discriminate; inversion U; reflexivity. }
  apply transmit_eq in Tr. destruct Tr as [[Eb [_ Es]]|[Eb Es]]; subst b s1; [rewrite Ns|].
  - constructor; cbn.
    + apply (base_thread s _ t (e_id e) [EvWire e] (Relock e true) B); cbn; try reflexivity; try exact Logic.I.
      * rewrite T. reflexivity.
      * intros v [V|[]]. subst v. auto.
      * split; [exact K|]. split; [exact A|]. split; [exact R|]. split; [|exact Lt]. intros f [V|V]; [discriminate|exact (D f V)].
      * right. reflexivity.
      * intros f [V|[]]. discriminate.
    + exact N.
    + intros u f. destruct (Nat.eqb_spec u t) as [E|E]; [discriminate|]. intros U. destruct (Oth u f E U).
    + intros O. congruence.
    + assert (J : idle_ok (set_thr t (Relock e true) (say (EvWire e) (set_owed (owed s ++ [e_id e]) s)))).
      { constructor; cbn; rewrite ?X1; try discriminate; [|intros; congruence].
        intros f F. inversion F; subst f. rewrite X2. cbn. auto. }
      unfold eng_ok in *. cbn. destruct (eng s); try destruct X5; [exact J|]. destruct G as [G1 _]. split; [exact G1|exact J].
    + exact L.
    + intros f F. right. apply Q. exact F.
  - constructor; cbn.
    + apply (base_thread s _ t (e_id e) [EvLost e] (Relock e false) B); cbn; try reflexivity; try exact Logic.I.
      * rewrite T. reflexivity.
      * intros v [V|[]]. subst v. auto.
      * split; [exact K|]. split; [exact A|]. split; [exact R|]. split; [|exact Lt]. intros f [V|V]; [discriminate|exact (D f V)].
      * right. reflexivity.
      * intros f [V|[]]. discriminate.
    + exact N.
    + intros u f. destruct (Nat.eqb_spec u t) as [E|E].
      * intros U. inversion U; subst. auto.
      * intros U. destruct (Oth u f E U).
    + intros O. congruence.
    + refine (eng_thr s t (Relock e false) _ _ G). rewrite T. auto.
    + exact L.
    + intros f F. right. apply Q. exact F.
Qed.

Lemma inv_relock_ok c t e s : inv c s -> thr s t = Relock e true -> inv c (set_thr t (WaitFor e) s).
Proof.
  intros I T. destruct I as [B N X C G L Q].
  pose proof (b_thr _ B t) as Tl. rewrite T in Tl. cbn in Tl.
  constructor; cbn.
  - apply (base_thread s _ t (e_id e) [] (WaitFor e) B); cbn; try reflexivity; try exact Logic.I.
    + rewrite T. reflexivity.
    + intros v [].
    + exact Tl.
    + right. reflexivity.
    + intros f [].
  - exact N.
  - intros u f. destruct (Nat.eqb u t); [discriminate|apply X].
  - intros O. destruct (C O) as [C1 [C2 [C3 C4]]]. split; [exact C1|]. split; [exact C2|]. split; [exact C3|].
    apply late_upd; [exact C4|exact Logic.I].
  - refine (eng_thr s t (WaitFor e) _ _ G). rewrite T. discriminate.
  - exact L.
  - exact Q.
Qed.

Lemma inv_relock_fail c t e s : inv c s -> thr s t = Relock e false -> (c_dbg c = true -> queue s = []) ->
  inv c (refuse t e (match queue s with [] => set_waiting None s | _ => arm c s end)).
Proof.
  intros I T Dbg. destruct I as [B N X C G L Q].
  destruct (X t e) as [X1 [X2 [X3 [X4 X5]]]]; [rewrite T; reflexivity|].
  pose proof (b_thr _ B t) as Tl. rewrite T in Tl. cbn in Tl. destruct Tl as [K [A [R [D Lt]]]].
  assert (Oth : forall u f, u <> t -> tx (thr s u) = Some f -> False).
  { intros u f E U. destruct (X u f U) as [Y _]. rewrite X1 in Y. inversion Y; subst f. apply E.
    apply (b_uniq _ B u t (e_id e)); [|rewrite T; reflexivity].
    destruct (thr s u) as [|g|g|g [|]|g]; cbn in *; try discriminate; inversion U; reflexivity. }
  assert (Id : idle_ok s) by (unfold eng_ok in G; destruct (eng s); try destruct X5; [exact G|apply G]).
  set (w := match queue s with [] => None | _ => Some Placeholder end).
  set (m := match queue s with [] => 0 | _ => 1 end).
  assert (S : (match queue s with [] => set_waiting None s | _ => arm c s end) =
     mkS (pool s) (queue s) w (opened s) (life s) (stopreq s) m (owed s) (thr s) (eng s) (log s) (next s) (bad s)).
  { unfold w, m. destruct (queue s) as [|x q] eqn:Eq.
    - unfold set_waiting. rewrite Eq, X3. reflexivity.
    - rewrite arm_eq; [|right; destruct (c_dbg c); [discriminate (Dbg eq_refl)|reflexivity]|exact X3].
      unfold set_cmds, set_waiting. cbn. rewrite Eq. reflexivity. }
  rewrite S. clear S.
  assert (Wn : forall i, cnt i (wid w) = 0) by (intros i; unfold w; destruct (queue s); reflexivity).
  constructor; cbn.
  - apply (base_thread s _ t (e_id e) [EvRefuse e] Idle B); cbn; try reflexivity; try exact Logic.I.
    + rewrite T. reflexivity.
    + intros v [V|[]]. subst v. auto.
    + left. reflexivity.
    + intros f [V|[]]. discriminate.
  - intros i. unfold held. cbn. rewrite Wn. specialize (N i). unfold held in N. rewrite X1 in N. cbn in N.
    revert N. destruct (Nat.eqb_spec (e_id e) i) as [E|E]; cbn [orb]; intros N.
    + subst i. rewrite R, A in N. rewrite A. unfold qid in *. cbn in *. lia.
    + unfold qid in *. lia.
  - intros u f. destruct (Nat.eqb_spec u t) as [E|E]; [discriminate|]. intros U. destruct (Oth u f E U).
  - intros O. congruence.
  - assert (J : idle_ok (refuse t e (mkS (pool s) (queue s) w (opened s) (life s) (stopreq s) m (owed s) (thr s) (eng s) (log s) (next s) (bad s)))).
    { unfold w, m. destruct (queue s) as [|x q] eqn:Eq; constructor; cbn; try discriminate; intros; auto; try congruence.
      split; [discriminate|auto]. }
    unfold eng_ok in *. cbn. destruct (eng s); try destruct X5; [exact J|]. destruct G as [G1 _]. split; [exact G1|exact J].
  - exact L.
  - intros f F. right. apply Q. exact F.
Qed.

Lemma inv_done c t e s : inv c s -> thr s t = WaitFor e -> existsb (is_call e) (log s) = true ->
  inv c (set_thr t Idle (say (EvDone e) s)).
Proof.
  intros I T Ex. destruct I as [B N X C G L Q].
  pose proof (b_thr _ B t) as Tl. rewrite T in Tl. cbn in Tl. destruct Tl as [K [A [R [D Lt]]]].
  constructor; cbn.
  - apply (base_thread s _ t (e_id e) [EvDone e] Idle B); cbn; try reflexivity; try exact Logic.I.
    + rewrite T. reflexivity.
    + intros v [V|[]]. subst v. auto.
    + left. reflexivity.
    + intros f [V|[]] Ns. inversion V; subst f. split; [exact A|]. split; [exact R|]. intros _. apply calls_existsb. exact Ex.
  - exact N.
  - intros u f. destruct (Nat.eqb u t); [discriminate|apply X].
  - intros O. destruct (C O) as [C1 [C2 [C3 C4]]]. split; [exact C1|]. split; [exact C2|]. split; [exact C3|].
    apply late_upd; [exact C4|exact Logic.I].
  - refine (eng_thr s t Idle _ _ G). rewrite T. discriminate.
  - exact L.
  - intros f F. right. apply Q. exact F.
Qed.

Lemma no_tx c s : inv c s -> (~ calm (eng s) \/ owed s <> [] \/ cmds s <> 0 \/ opened s = false) -> forall t, tx (thr s t) = None.
Proof.
  intros I H t. destruct (tx (thr s t)) as [e|] eqn:E; [|reflexivity]. exfalso.
  destruct (v_tx _ _ I t e E) as [_ [X2 [X3 [X4 X5]]]]. destruct H as [H|[H|[H|H]]]; try contradiction. congruence.
Qed.

Lemma base_call s e r : base s -> acc (e_id e) (log s) = true -> match r with Some k => k = e_id e | None => True end ->
  base (say (EvCall e r) s).
Proof.
  intros B A R. destruct (acc_in _ _ A) as [f [F [E _]]]. apply base_engine; [exact B|exists (EvAcc f); auto|].
  destruct r; auto.
Qed.

Lemma acc_of_cnt a b : S a = b2n b -> b = true.
Proof. destruct b; [reflexivity|discriminate]. Qed.

Lemma held_acc c s i : inv c s -> held s i >= 1 -> acc i (log s) = true /\ refd i (log s) = false /\ calls i (log s) = 0.
Proof.
  intros I H. pose proof (v_cnt _ _ I i) as N. revert N.
  destruct (acc i (log s)), (refd i (log s)); cbn; intros N; try (exfalso; lia).
  split; [reflexivity|]. split; [reflexivity|lia].
Qed.

Lemma inv_eng c ok s s' : inv c s -> eng_step ok s = Some s' -> inv c s'.
Proof.
  intros I St. pose proof I as [B N X C G L Q]. unfold eng_step in St. unfold eng_ok in G.
  destruct (eng s) as [|e k|e b k|sl k|k|sl r| |sl| |e] eqn:Eg; try discriminate.
  - (* ESending *)
    destruct G as [Ck [W [O [Cm Op]]]].
    assert (NT : forall t, tx (thr s t) = None) by (apply (no_tx c s I); left; rewrite Eg; auto).
    assert (Ae : In (EvAcc e) (log s)) by (apply Q; right; rewrite ?Eg; reflexivity).
    destruct (transmit e ok s) as [s1 b] eqn:Tr. apply transmit_eq in Tr. inversion St; subst s'; clear St.
    assert (Lf : life s <> Stopped /\ life s <> Starting).
    { destruct L as [L1 [L2 _]]. split; intros Z; [destruct (L1 Z)|destruct (L2 Z)]; congruence. }
    assert (H2 : forall v, (v = EvWire e \/ v = EvLost e) -> base (say v s)).
    { intros v V. apply base_engine; [exact B| |destruct V; subst; exact Logic.I].
      exists (EvAcc e). split; [exact Ae|]. destruct V; subst; reflexivity. }
    destruct Tr as [[Eb [_ Es]]|[Eb Es]]; subst b s1.
    + constructor; cbn.
      * apply (base_cong (say (EvWire e) s)); [apply H2; auto|..]; destruct (is_send e); reflexivity.
      * intros i. specialize (N i). unfold held in *. rewrite Eg in N. destruct (is_send e); cbn in *; exact N.
      * intros t f U. exfalso. specialize (NT t). destruct (is_send e); cbn in U; congruence.
      * intros Z. exfalso. destruct (is_send e); cbn in Z; congruence.
      * unfold eng_ok. cbn. destruct (is_send e) eqn:Se; cbn; rewrite ?O; cbn; auto.
      * destruct L as [_ [_ [L3 _]]]. destruct (is_send e); cbn; (split; [intros Z; destruct Lf; contradiction|]);
          (split; [intros Z; destruct Lf; contradiction|]); (split; [exact L3|right; right; exact Op]).
      * intros f F. destruct (is_send e); cbn in F; right; apply Q; rewrite ?Eg; exact F.
    + constructor; cbn.
      * apply (base_cong (say (EvLost e) s)); [apply H2; auto|..]; reflexivity.
      * intros i. specialize (N i). unfold held in *. rewrite Eg in N. cbn in *. exact N.
      * intros t f U. exfalso. specialize (NT t). congruence.
      * intros Z. congruence.
      * unfold eng_ok. cbn. auto.
      * destruct L as [_ [_ [L3 _]]]. (split; [intros Z; destruct Lf; contradiction|]);
          (split; [intros Z; destruct Lf; contradiction|]); (split; [exact L3|right; right; exact Op]).
      * intros f F. right; apply Q; rewrite ?Eg; exact F.
  - (* ESent *)
    destruct G as [Ck [W [Cm [Op O]]]].
    assert (NT : forall t, tx (thr s t) = None) by (apply (no_tx c s I); left; rewrite Eg; auto).
    assert (Lf : life s <> Stopped /\ life s <> Starting).
    { destruct L as [L1 [L2 _]]. split; intros Z; [destruct (L1 Z)|destruct (L2 Z)]; congruence. }
    destruct (is_send e) eqn:Se.
    + inversion St; subst s'; clear St. rewrite andb_false_r in O. destruct L as [_ [_ [L3 _]]]. apply inv_loop; cbn; auto.
      * apply (base_cong s); auto.
      * intros i. specialize (N i). unfold held in N. rewrite Eg, W in N. unfold slot_of in N. rewrite Se in N. cbn in N. lia.
      * apply Lf.
      * apply Lf.
    + destruct b.
      * inversion St; subst s'; clear St. cbn in O.
        assert (Wh : waiting s = Some (Held e)) by (rewrite W; unfold slot_of; rewrite Se; reflexivity).
        assert (J : forall g, idle_ok (set_eng g (set_pool (S (pool s)) s))).
        { intros g. constructor; cbn; rewrite ?Wh; try discriminate; [|intros; congruence].
          intros f F. inversion F; subst f. auto. }
        unfold finish. destruct k as [[sl r]|]; constructor; cbn.
        -- apply (base_cong s); auto.
        -- intros i. specialize (N i). unfold held in *. rewrite Eg in N. cbn in *. exact N.
        -- intros t f U. specialize (NT t). congruence.
        -- congruence.
        -- unfold eng_ok. cbn. split; [exact Ck|apply J].
        -- destruct L as [_ [_ [L3 _]]]. split; [intros Z; destruct Lf; contradiction|].
           split; [intros Z; destruct Lf; contradiction|]. split; [exact L3|right; right; exact Op].
        -- intros f [F|F]; [apply Q; left; exact F|discriminate].
        -- apply (base_cong s); auto.
        -- intros i. specialize (N i). unfold held in *. rewrite Eg in N. cbn in *. exact N.
        -- intros t f U. specialize (NT t). congruence.
        -- congruence.
        -- unfold eng_ok. cbn. apply J.
        -- destruct L as [_ [_ [L3 _]]]. split; [intros Z; destruct Lf; contradiction|].
           split; [intros Z; destruct Lf; contradiction|]. split; [exact L3|right; right; exact Op].
        -- intros f [F|F]; [apply Q; left; exact F|discriminate].
      * cbn in St. rewrite W in St. inversion St; subst s'; clear St. cbn in O.
        constructor; cbn.
        -- apply (base_cong s); auto.
        -- intros i. specialize (N i). unfold held in *. rewrite Eg, W in N. cbn in *. rewrite cnt_app. cbn in N. lia.
        -- intros t f U. specialize (NT t). congruence.
        -- congruence.
        -- unfold eng_ok. cbn. split; [exact Ck|]. split; [exists e; unfold slot_of; rewrite Se; reflexivity|]. auto.
        -- destruct L as [_ [_ [L3 _]]]. split; [intros Z; destruct Lf; contradiction|].
           split; [intros Z; destruct Lf; contradiction|]. split; [exact L3|right; right; exact Op].
        -- intros f [F|F]; [apply Q; left; exact F|discriminate].
  - (* ECallErr *)
    destruct G as [Ck [[e Es] [W [O [Cm Op]]]]]. subst sl. inversion St; subst s'; clear St.
    assert (NT : forall t, tx (thr s t) = None) by (apply (no_tx c s I); left; rewrite Eg; auto).
    assert (Lf : life s <> Stopped /\ life s <> Starting).
    { destruct L as [L1 [L2 _]]. split; intros Z; [destruct (L1 Z)|destruct (L2 Z)]; congruence. }
    assert (Hh : held s (e_id e) >= 1) by (unfold held; rewrite Eg; cbn; rewrite Nat.eqb_refl; lia).
    destruct (held_acc c s _ I Hh) as [Ha _].
    constructor; cbn.
    + apply (base_cong (say (EvCall e None) s)); [apply base_call; auto|..]; reflexivity.
    + intros i. specialize (N i). unfold held in *. rewrite Eg in N. cbn in *. unfold b2n at 1.
      destruct (Nat.eqb (e_id e) i); cbn in *; lia.
    + intros t f U. specialize (NT t). congruence.
    + congruence.
    + unfold eng_ok. cbn. auto.
    + destruct L as [_ [_ [L3 _]]]. split; [intros Z; destruct Lf; contradiction|].
      split; [intros Z; destruct Lf; contradiction|]. split; [exact L3|right; right; exact Op].
    + intros f [F|F]; [right; apply Q; left; exact F|discriminate].
  - (* ERelock *)
    destruct G as [Ck [W [O [Cm Op]]]]. inversion St; subst s'; clear St.
    assert (NT : forall t, tx (thr s t) = None) by (apply (no_tx c s I); left; rewrite Eg; auto).
    destruct L as [L1 [L2 [L3 _]]].
    apply inv_loop; cbn; auto.
    + apply (base_cong s); auto.
    + intros i. specialize (N i). unfold held in N. rewrite Eg, W in N. cbn in N. lia.
    + intros Z. destruct (L1 Z). congruence.
    + intros Z. destruct (L2 Z). congruence.
  - (* ECall *)
    destruct G as [[e [Es Er]] Id]. subst sl r. inversion St; subst s'; clear St.
    assert (Hh : held s (e_id e) >= 1) by (unfold held; rewrite Eg; cbn; rewrite Nat.eqb_refl; lia).
    destruct (held_acc c s _ I Hh) as [Ha _].
    constructor; cbn.
    + apply (base_cong (say (EvCall e (Some (e_id e))) s)); [apply base_call; auto|..]; reflexivity.
    + intros i. specialize (N i). unfold held in *. rewrite Eg in N. cbn in *. unfold b2n at 1.
      destruct (Nat.eqb (e_id e) i); cbn in *; lia.
    + intros t f U. destruct (X t f U) as [X1 [X2 [X3 [X4 X5]]]]. auto.
    + exact C.
    + unfold eng_ok. cbn. destruct Id as [I1 I2 I3 I4]. constructor; cbn; auto.
    + destruct L as [L1 [L2 [L3 L4]]]. split; [intros Z; destruct (L1 Z); discriminate|].
      split; [intros Z; destruct (L2 Z); discriminate|]. split; [exact L3|left; exact Logic.I].
    + intros f [F|F]; [right; apply Q; left; exact F|discriminate].
  - (* EStopTake *)
    assert (NT : forall t, tx (thr s t) = None) by (apply (no_tx c s I); left; rewrite Eg; auto).
    assert (Lf : life s = Stopping /\ stopreq s = false).
    { destruct L as [_ [_ [_ [L4|[L4|L4]]]]]; [destruct L4|exact L4|congruence]. }
    destruct Lf as [Lf Sr].
    destruct (waiting s) as [sl|] eqn:W; inversion St; subst s'; clear St.
    + constructor; cbn.
      * apply (base_cong s); auto.
      * intros i. specialize (N i). unfold held in *. rewrite Eg, W in N. cbn in *. lia.
      * intros t f U. specialize (NT t). congruence.
      * exact C.
      * unfold eng_ok. cbn. auto.
      * rewrite Lf in *. split; [discriminate|]. split; [discriminate|]. split; [auto|]. right. left. auto.
      * intros f [F|F]; [apply Q; left; exact F|discriminate].
    + constructor; cbn.
      * apply (base_cong s); auto.
      * intros i. specialize (N i). unfold held in *. rewrite Eg, W in N. cbn in *. rewrite W. exact N.
      * intros t f U. specialize (NT t). congruence.
      * exact C.
      * unfold eng_ok. cbn. auto.
      * rewrite Lf in *. split; [discriminate|]. split; [discriminate|]. split; [auto|]. right. left. auto.
      * intros f [F|F]; [apply Q; left; exact F|discriminate].
  - (* EStopCall *)
    destruct G as [Op W].
    assert (NT : forall t, tx (thr s t) = None) by (apply (no_tx c s I); left; rewrite Eg; auto).
    assert (Lf : life s = Stopping /\ stopreq s = false).
    { destruct L as [_ [_ [_ [L4|[L4|L4]]]]]; [destruct L4|exact L4|congruence]. }
    destruct Lf as [Lf Sr].
    inversion St; subst s'; clear St. destruct sl as [|e].
    + constructor; cbn.
      * apply (base_cong s); auto.
      * intros i. specialize (N i). unfold held in *. rewrite Eg in N. cbn in *. exact N.
      * intros t f U. specialize (NT t). congruence.
      * exact C.
      * unfold eng_ok. cbn. auto.
      * rewrite Lf in *. split; [discriminate|]. split; [discriminate|]. split; [auto|]. right. left. auto.
      * intros f [F|F]; [apply Q; left; exact F|discriminate].
    + assert (Hh : held s (e_id e) >= 1) by (unfold held; rewrite Eg; cbn; rewrite Nat.eqb_refl; lia).
      destruct (held_acc c s _ I Hh) as [Ha _].
      constructor; cbn.
      * apply (base_cong (say (EvCall e None) s)); [apply base_call; auto|..]; reflexivity.
      * intros i. specialize (N i). unfold held in *. rewrite Eg in N. cbn in *. unfold b2n at 1.
        destruct (Nat.eqb (e_id e) i); cbn in *; lia.
      * intros t f U. specialize (NT t). congruence.
      * exact C.
      * unfold eng_ok. cbn. auto.
      * rewrite Lf in *. split; [discriminate|]. split; [discriminate|]. split; [auto|]. right. left. auto.
      * intros f [F|F]; [right; apply Q; left; exact F|discriminate].
  - (* EStopLoop *)
    destruct G as [Op W].
    assert (NT : forall t, tx (thr s t) = None) by (apply (no_tx c s I); left; rewrite Eg; auto).
    assert (Lf : life s = Stopping /\ stopreq s = false).
    { destruct L as [_ [_ [_ [L4|[L4|L4]]]]]; [destruct L4|exact L4|congruence]. }
    destruct Lf as [Lf Sr].
    destruct (C Op) as [C1 [C2 [C3 C4]]].
    destruct (queue s) as [|e q] eqn:Eq; inversion St; subst s'; clear St.
    + constructor; cbn.
      * apply (base_cong s); auto.
      * intros i. specialize (N i). unfold held in *. rewrite Eg in N. cbn in *. exact N.
      * intros t f U. specialize (NT t). congruence.
      * intros _. split; [exact C1|]. split; [exact C2|]. split; [discriminate|exact C4].
      * unfold eng_ok. cbn. constructor; cbn; rewrite ?W; try discriminate; auto.
      * rewrite Lf in *. split; [auto|]. split; [discriminate|]. split; [|left; exact Logic.I].
        rewrite Sr. discriminate.
      * intros f [F|F]; [rewrite Eq in F; destruct F|discriminate].
    + assert (Ae : In (EvAcc e) (log s)) by (apply Q; left; left; reflexivity).
      constructor; cbn.
      * apply (base_cong (say (EvDrop e) s)); [|destruct (is_send e); reflexivity..].
        apply base_engine; [exact B|exists (EvAcc e); auto|exact Logic.I].
      * intros i. specialize (N i). unfold held in *. rewrite Eg in N. rewrite Eq, qid_cons in N. cbn in *.
        unfold eid in N. destruct (is_send e); cbn in *; lia.
      * intros t f U. specialize (NT t). congruence.
      * intros _. auto.
      * unfold eng_ok. cbn. destruct (is_send e) eqn:Se; cbn; auto.
      * rewrite Lf in *. split; [discriminate|]. split; [discriminate|]. split; [auto|]. right. left. auto.
      * intros f F. right. apply Q. destruct F as [F|F]; [left; right; exact F|].
        destruct (is_send e); cbn in F; [discriminate|]. inversion F; subst. left. left. reflexivity.
  - (* EStopCallQ *)
    destruct G as [Se [Op W]].
    assert (NT : forall t, tx (thr s t) = None) by (apply (no_tx c s I); left; rewrite Eg; auto).
    assert (Lf : life s = Stopping /\ stopreq s = false).
    { destruct L as [_ [_ [_ [L4|[L4|L4]]]]]; [destruct L4|exact L4|congruence]. }
    destruct Lf as [Lf Sr].
    inversion St; subst s'; clear St.
    assert (Hh : held s (e_id e) >= 1) by (unfold held; rewrite Eg; cbn; rewrite Nat.eqb_refl; lia).
    destruct (held_acc c s _ I Hh) as [Ha _].
    constructor; cbn.
    + apply (base_cong (say (EvCall e None) s)); [apply base_call; auto|..]; reflexivity.
    + intros i. specialize (N i). unfold held in *. rewrite Eg in N. cbn in *. unfold b2n at 1.
      destruct (Nat.eqb (e_id e) i); cbn in *; lia.
    + intros t f U. specialize (NT t). congruence.
    + exact C.
    + unfold eng_ok. cbn. auto.
    + rewrite Lf in *. split; [discriminate|]. split; [discriminate|]. split; [auto|]. right. left. auto.
    + intros f [F|F]; [right; apply Q; left; exact F|discriminate].
Qed.

Lemma idle_same s s' : queue s' = queue s -> waiting s' = waiting s -> owed s' = owed s -> cmds s' = cmds s ->
  thr s' = thr s -> (opened s' = opened s \/ opened s' = true) -> idle_ok s -> idle_ok s'.
Proof.
  intros A B C D E F [I1 I2 I3 I4]. constructor; rewrite ?A, ?B, ?C, ?D, ?E; auto.
  destruct F as [F|F]; rewrite F; [exact I4|discriminate].
Qed.

Lemma inv_stop_request c s : inv c s -> inv c (stop_request s).
Proof.
  intros I. pose proof I as [B N X C G L Q]. unfold stop_request.
  assert (M : life s = Starting \/ life s = Ready -> inv c (set_stopreq true (set_life Stopping s))).
  { intros Lf. constructor; cbn.
    - apply (base_cong s); auto.
    - exact N.
    - exact X.
    - intros O. destruct (C O) as [C1 [C2 [C3 C4]]]. split; [exact C1|]. split; [exact C2|]. split; [discriminate|exact C4].
    - unfold eng_ok in *. cbn. assert (J : idle_ok s -> idle_ok (set_stopreq true (set_life Stopping s))) by (apply idle_same; auto).
      destruct (eng s); auto. destruct G; auto.
    - split; [discriminate|]. split; [discriminate|]. split; [auto|].
      destruct L as [_ [L2 [_ [L4|[L4|L4]]]]]; auto. destruct L4 as [L4 _]. rewrite L4 in Lf. destruct Lf; discriminate.
    - exact Q. }
  destruct (life s); auto.
Qed.

Lemma inv_step c l s s' : inv c s -> polite c l s -> step c l s = Some s' -> inv c s'.
Proof.
  intros I P St. destruct l; cbn [step] in St.
  - destruct (thr s t) eqn:T; try discriminate. destruct (life s) eqn:Lf; try discriminate. inversion St; subst.
    apply inv_begin; assumption.
  - destruct (thr s t) as [|e|e|e b|e] eqn:T; try discriminate. inversion St; subst. apply inv_enter; assumption.
  - destruct (thr s t) as [|e|e|e b|e] eqn:T; try discriminate.
    destruct (transmit e ok s) as [s1 b] eqn:Tr. inversion St; subst. exact (inv_tsend c t e ok s s1 b I T Tr).
  - cbn in P. destruct (thr s t) as [|e|e|e b|e] eqn:T; try discriminate. inversion St; subst. unfold relock. destruct b.
    + apply inv_relock_ok; assumption.
    + apply inv_relock_fail; assumption.
  - destruct (thr s t) as [|e|e|e b|e] eqn:T; try discriminate. destruct (existsb (is_call e) (log s)) eqn:E; try discriminate.
    inversion St; subst. apply inv_done; assumption.
  - (* reply *)
    destruct (eng s) eqn:Eg; try discriminate. destruct (opened s) eqn:Op; try discriminate. cbn in St, P.
    pose proof I as [B N X C G L Q]. unfold eng_ok in G. rewrite Eg in G. destruct G as [I1 I2 I3 I4].
    destruct (waiting s) as [[|e]|] eqn:W.
    + destruct (I2 eq_refl) as [_ [O _]]. rewrite O in P. destruct P.
    + destruct (I3 e eq_refl) as [Cm [O|[O _]]]; [|rewrite O in P; destruct P].
      rewrite O in *. destruct P as [P|[]]. subst r. inversion St; subst s'; clear St.
      assert (NT : forall t, tx (thr s t) = None) by (apply (no_tx c s I); right; left; rewrite O; discriminate).
      destruct L as [L1 [L2 [L3 _]]]. apply inv_loop; cbn; auto.
      * apply (base_cong s); auto.
      * rewrite ?O. cbn. destruct (Nat.eq_dec (e_id e) (e_id e)); [reflexivity|congruence].
      * exists e. auto.
      * intros i. specialize (N i). unfold held in N. rewrite Eg, W in N. cbn in N. lia.
      * intros Z. destruct (L1 Z). congruence.
      * intros Z. destruct (L2 Z). congruence.
    + destruct (I1 eq_refl) as [_ [O _]]. rewrite O in P. destruct P.
  - (* command *)
    destruct (eng s) eqn:Eg; try discriminate. destruct (cmds s) eqn:Cm; try discriminate. inversion St; subst s'; clear St.
    pose proof I as [B N X C G L Q]. unfold eng_ok in G. rewrite Eg in G. destruct G as [I1 I2 I3 I4].
    assert (NT : forall t, tx (thr s t) = None) by (apply (no_tx c s I); right; right; left; rewrite Cm; discriminate).
    assert (Op : opened s = true). { destruct (opened s) eqn:O; [reflexivity|]. destruct (C eq_refl) as [_ [Z _]]. congruence. }
    assert (W : waiting s = Some Placeholder).
    { destruct (waiting s) as [[|e]|] eqn:W; [reflexivity|destruct (I3 e eq_refl) as [Z _]; congruence|destruct (I1 eq_refl) as [_ [_ Z]]; congruence]. }
    destruct (I2 W) as [Qe [O C1]]. rewrite Cm in C1. inversion C1; subst n. clear C1.
    destruct L as [L1 [L2 [L3 _]]].
    assert (Lf1 : life s <> Stopped) by (intros Z; destruct (L1 Z); congruence).
    assert (Lf2 : life s <> Starting) by (intros Z; destruct (L2 Z); congruence).
    assert (E : loop_head None (set_cmds 0 s) = loop_head None (set_waiting None (set_cmds 0 s))).
    { unfold loop_head. cbn. destruct (queue s); [contradiction|reflexivity]. }
    rewrite E. apply inv_loop; cbn; auto.
    + apply (base_cong s); auto.
    + intros i. specialize (N i). unfold held in N. rewrite Eg, W in N. cbn in N. lia.
  - exact (inv_eng c ok s s' I St).
  - inversion St; subst. apply inv_stop_request. exact I.
  - (* stop *)
    destruct (eng s) eqn:Eg; try discriminate. destruct (stopreq s) eqn:Sr; try discriminate. inversion St; subst s'; clear St.
    cbn in P. pose proof I as [B N X C G L Q]. destruct L as [L1 [L2 [L3 L4]]]. specialize (L3 Sr).
    assert (NT : forall t, tx (thr s t) = None).
    { intros t. specialize (P t). destruct (thr s t) as [|e|e|e [|]|e]; cbn in *; auto; destruct P. }
    constructor; cbn.
    + apply (base_cong s); auto.
    + intros i. specialize (N i). unfold held in *. rewrite Eg in N. cbn in *. exact N.
    + intros t f U. rewrite NT in U. discriminate.
    + intros _. split; [reflexivity|]. split; [reflexivity|]. split; [rewrite L3; discriminate|exact P].
    + unfold eng_ok. reflexivity.
    + rewrite L3. split; [discriminate|]. split; [discriminate|]. split; [auto|]. right. left. auto.
    + intros f [F|F]; [apply Q; left; exact F|discriminate].
  - (* restart *)
    destruct (life s) eqn:Lf; try discriminate. inversion St; subst s'; clear St.
    pose proof I as [B N X C G L Q]. destruct L as [L1 [L2 [L3 L4]]]. destruct (L1 Lf) as [Eg Op].
    constructor; cbn.
    + apply (base_cong s); auto.
    + exact N.
    + exact X.
    + intros O. destruct (C O) as [C1 [C2 [C3 C4]]]. split; [exact C1|]. split; [exact C2|]. split; [discriminate|exact C4].
    + unfold eng_ok in *. cbn. rewrite Eg in *. revert G. apply idle_same; auto.
    + split; [discriminate|]. split; [auto|]. split; [intros Z; specialize (L3 Z); congruence|].
      left. rewrite Eg. exact Logic.I.
    + exact Q.
  - (* connect *)
    destruct (eng s) eqn:Eg; try discriminate. destruct (life s) eqn:Lf; try discriminate. inversion St; subst s'; clear St.
    pose proof I as [B N X C G L Q]. destruct L as [L1 [L2 [L3 L4]]]. destruct (L2 Lf) as [_ Op].
    assert (NT : forall t, tx (thr s t) = None) by (apply (no_tx c s I); auto).
    constructor; cbn.
    + apply (base_cong s); auto.
    + exact N.
    + intros t f U. rewrite NT in U. discriminate.
    + discriminate.
    + unfold eng_ok in *. cbn. rewrite Eg in *. revert G. apply idle_same; auto.
    + split; [discriminate|]. split; [discriminate|]. split; [intros Z; specialize (L3 Z); congruence|].
      right. right. reflexivity.
    + intros f F. apply Q. rewrite ?Eg in *. exact F.
Qed.

Lemma inv_init c : inv c (init c).
Proof.
  constructor; cbn.
  - constructor; cbn.
    + intros v [].
    + intros t. exact Logic.I.
    + discriminate.
    + reflexivity.
    + intros e [].
    + intros e r [].
  - reflexivity.
  - discriminate.
  - intros _. split; [reflexivity|]. split; [reflexivity|]. split; [discriminate|]. intros t. exact Logic.I.
  - unfold eng_ok. cbn. constructor; cbn; auto; discriminate.
  - split; [discriminate|]. split; [auto|]. split; [discriminate|left; exact Logic.I].
  - intros e [[]|F]. discriminate.
Qed.
