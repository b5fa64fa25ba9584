(** Simulation between MoveModel and MoveSpec. *)
From Verif Require Import Base OffsetPtrModel MoveModel MoveSpec.
Open Scope nat_scope.

Definition mem (k : nat) (ks : list nat) : bool := existsb (Nat.eqb k) ks.

Lemma mem_In k ks : mem k ks = true <-> In k ks.
Proof.
  unfold mem. rewrite existsb_exists. split.
  - intros (x & H & E). apply Nat.eqb_eq in E. subst. exact H.
  - intros H. exists k. split; [exact H|apply Nat.eqb_refl].
Qed.

Lemma mem_seq k n : mem k (seq 0 n) = Nat.ltb k n.
Proof.
  apply Bool.eq_iff_eq_true. rewrite mem_In, in_seq, Nat.ltb_lt. lia.
Qed.

Lemma mem_rev k ks : mem k (rev ks) = mem k ks.
Proof. apply Bool.eq_iff_eq_true. rewrite !mem_In, <- in_rev. reflexivity. Qed.

Lemma heqb_spec a b : reflect (a = b) (heqb a b).
Proof.
  destruct a, b; cbn; try (constructor; congruence).
  - destruct (Nat.eqb_spec l l0); constructor; congruence.
  - destruct (Nat.eqb_spec i i0); constructor; congruence.
Qed.

Lemma heqb_refl h : heqb h h = true.
Proof. destruct (heqb_spec h h); congruence. Qed.

Definition full (i k : nat) (f : bool) : elem := mkE (Some (i, k)) (Some (i, k)) f (Some (i, k)).
Definition elof (v : option nat) (k : nat) (f : bool) : elem :=
  match v with None => moved | Some i => full i k f end.

Ltac bd := repeat (match goal with
  | |- context [Nat.eqb ?a ?b] => destruct (Nat.eqb_spec a b); try subst; cbn [andb orb negb]
  | |- context [heqb ?a ?b] => destruct (heqb_spec a b); try subst; cbn [andb orb negb]
  | |- context [mem ?a ?b] => let E := fresh "E" in destruct (mem a b) eqn:E; cbn [andb orb negb]
  end); try congruence; try reflexivity.

(** everything but elements, cells, trackers, handlers and the world *)
Definition same (s s' : cst) : Prop :=
  (forall l, objs s' l = objs s l) /\ (forall i, prepc s' i = prepc s i) /\
  (forall i, stopc s' i = stopc s i) /\ nxt s' = nxt s.

Lemma same_refl s : same s s.
Proof. repeat split. Qed.

Lemma same_trans a b c : same a b -> same b c -> same a c.
Proof.
  intros (A & B & C & D) (A' & B' & C' & D'). repeat split; intros;
  [rewrite A', A|rewrite B', B|rewrite C', C|rewrite D', D]; reflexivity.
Qed.

Lemma off_act w i ks i' k' :
  act (fold_left (fun w k => if act w i k then w_off w i k else w) ks w) i' k' =
  if Nat.eqb i' i && mem k' ks then false else act w i' k'.
Proof.
  revert w; induction ks as [|k r IH]; intros w; cbn [fold_left].
  - cbn. rewrite andb_false_r. reflexivity.
  - rewrite IH. change (mem k' (k :: r)) with (Nat.eqb k' k || mem k' r).
    destruct (act w i k) eqn:A; cbn [w_off act]; unfold fupd2; bd.
Qed.

Lemma off_ann w i ks :
  ann (fold_left (fun w k => if act w i k then w_off w i k else w) ks w) = ann w.
Proof.
  revert w; induction ks as [|k r IH]; intros w; cbn [fold_left]; [reflexivity|].
  rewrite IH. destruct (act w i k); reflexivity.
Qed.

Lemma off_held w i ks :
  held (fold_left (fun w k => if act w i k then w_off w i k else w) ks w) = held w.
Proof.
  revert w; induction ks as [|k r IH]; intros w; cbn [fold_left]; [reflexivity|].
  rewrite IH. destruct (act w i k); reflexivity.
Qed.

Lemma on_act w i ks i' k' :
  act (fold_left (fun w k => w_on w i k) ks w) i' k' =
  if Nat.eqb i' i && mem k' ks then true else act w i' k'.
Proof.
  revert w; induction ks as [|k r IH]; intros w; cbn [fold_left].
  - cbn. rewrite andb_false_r. reflexivity.
  - rewrite IH. change (mem k' (k :: r)) with (Nat.eqb k' k || mem k' r).
    cbn [w_on act]; unfold fupd2; bd.
Qed.

Lemma on_ann w i ks : ann (fold_left (fun w k => w_on w i k) ks w) = ann w.
Proof. revert w; induction ks as [|k r IH]; intros w; cbn [fold_left]; [reflexivity|]. rewrite IH. reflexivity. Qed.

Lemma on_held w i ks : held (fold_left (fun w k => w_on w i k) ks w) = held w.
Proof. revert w; induction ks as [|k r IH]; intros w; cbn [fold_left]; [reflexivity|]. rewrite IH. reflexivity. Qed.

Definition good (s : cst) (h : home) (i k : nat) : Prop :=
  cells s i k = Some (h, k) /\ els s h k = Some (full i k (act (wd s) i k)).

Lemma good_at s h i k : good s h i k -> at_cell s (i, k) = Ok (h, k, full i k (act (wd s) i k)).
Proof. intros (A & B). unfold at_cell. cbn [fst snd]. rewrite A, B. reflexivity. Qed.

(** ** stopping the elements of a skeleton *)
Lemma loop_stop h i ks : forall s,
  NoDup ks -> (forall k, In k ks -> good s h i k) ->
  exists s', foldM elem_stop s (map (pair i) ks) = Ok s' /\ same s s' /\
    wd s' = fold_left (fun w k => if act w i k then w_off w i k else w) ks (wd s) /\
    cells s' = cells s /\ trk s' = trk s /\ hnd s' = hnd s /\
    (forall h' k', els s' h' k' =
       if heqb h' h && mem k' ks then Some (full i k' false) else els s h' k').
Proof.
  induction ks as [|k r IH]; intros s ND G; cbn [map foldM].
  - exists s. split; [reflexivity|]. split; [apply same_refl|]. repeat split. intros h' k'. cbn.
    rewrite andb_false_r. reflexivity.
  - inversion ND as [|? ? Nk NDr]; subst.
    assert (Gk := G k (or_introl eq_refl)).
    unfold elem_stop at 1. rewrite (good_at _ _ _ _ Gk). cbn [bind full e_flag e_bind].
    destruct (act (wd s) i k) eqn:A.
    + set (s1 := set_el (set_w s (w_off (wd s) i k)) h k (Some (with_flag (full i k true) false))).
      destruct (IH s1 NDr) as (s' & R & SM & W & C & T & H & E).
      { intros k' I'. destruct (G k' (or_intror I')) as (C & E). split; [exact C|].
        unfold s1. cbn [set_el els set_w wd w_off act]. rewrite heqb_refl. unfold fupd2.
        rewrite Nat.eqb_refl. cbn [andb].
        destruct (Nat.eqb_spec k' k) as [->|]; [contradiction|]. exact E. }
      exists s'. split; [exact R|]. split; [exact SM|].
      split; [rewrite W; cbn [fold_left]; rewrite A; reflexivity|].
      split; [exact C|]. split; [exact T|]. split; [exact H|].
      intros h' k'. rewrite E. unfold s1. cbn [set_el els set_w with_flag full e_cell e_bind e_trk].
      change (mem k' (k :: r)) with (Nat.eqb k' k || mem k' r). bd.
    + destruct (IH s NDr) as (s' & R & SM & W & C & T & H & E).
      { intros k' I'. apply G. right; exact I'. }
      exists s'. split; [exact R|]. split; [exact SM|].
      split; [rewrite W; cbn [fold_left]; rewrite A; reflexivity|].
      split; [exact C|]. split; [exact T|]. split; [exact H|].
      intros h' k'. rewrite E.
      change (mem k' (k :: r)) with (Nat.eqb k' k || mem k' r). destruct Gk as (_ & Ek).
      rewrite A in Ek. bd.
Qed.

(** ** unsubscribing the elements of a proxy *)
Lemma loop_unsub h i ks : forall s,
  NoDup ks -> (forall k, In k ks -> good s h i k) ->
  (forall k, 0 < held (wd s) i k -> act (wd s) i k = true) ->
  if existsb (fun k => Nat.ltb 0 (held (wd s) i k)) ks
  then foldM elem_unsub s (map (pair i) ks) = Term
  else
  exists s', foldM elem_unsub s (map (pair i) ks) = Ok s' /\ same s s' /\
    wd s' = fold_left (fun w k => if act w i k then w_off w i k else w) ks (wd s) /\
    cells s' = cells s /\ trk s' = trk s /\
    (forall i' k', hnd s' i' k' =
       if Nat.eqb i' i && mem k' ks && act (wd s) i' k' then None else hnd s i' k') /\
    (forall h' k', els s' h' k' =
       if heqb h' h && mem k' ks then Some (full i k' false) else els s h' k').
Proof.
  induction ks as [|k r IH]; intros s ND G HA; cbn [map foldM existsb].
  - exists s. split; [reflexivity|]. split; [apply same_refl|]. repeat split; intros; cbn;
    rewrite andb_false_r; reflexivity.
  - inversion ND as [|? ? Nk NDr]; subst.
    assert (Gk := G k (or_introl eq_refl)).
    unfold elem_unsub at 1 3. rewrite (good_at _ _ _ _ Gk). cbn [bind].
    unfold unsub_at. cbn [full e_flag e_bind e_trk in_use].
    destruct (act (wd s) i k) eqn:A.
    + destruct (Nat.ltb 0 (held (wd s) i k)) eqn:HL; cbn [orb bind]; [reflexivity|].
      set (s1 := set_el (set_hnd (set_w s (w_off (wd s) i k)) (Some (i, k)) None) h k (Some (with_flag (full i k true) false))).
      specialize (IH s1 NDr).
      assert (P : forall k', In k' r -> good s1 h i k').
      { intros k' I'. destruct (G k' (or_intror I')) as (C & E). split; [exact C|].
        unfold s1. cbn [set_el els set_w set_hnd wd w_off act]. rewrite heqb_refl. unfold fupd2.
        rewrite Nat.eqb_refl. cbn [andb].
        destruct (Nat.eqb_spec k' k) as [->|]; [contradiction|]. exact E. }
      specialize (IH P).
      assert (Q : forall k', 0 < held (wd s1) i k' -> act (wd s1) i k' = true).
      { intros k' L. unfold s1 in *. cbn [set_el set_w set_hnd wd w_off act held] in *. unfold fupd2.
        rewrite Nat.eqb_refl. cbn [andb]. destruct (Nat.eqb_spec k' k) as [->|].
        - apply Nat.ltb_ge in HL. lia.
        - apply HA. exact L. }
      specialize (IH Q).
      change (held (wd s1)) with (held (wd s)) in IH.
      destruct (existsb _ r) eqn:X.
      * exact IH.
      * destruct IH as (s' & R & SM & W & C & T & H & E).
        exists s'. split; [exact R|]. split; [exact SM|].
        split; [rewrite W; cbn [fold_left]; rewrite A; reflexivity|].
        split; [exact C|]. split; [exact T|]. split.
        -- intros i' k'. rewrite H. unfold s1. cbn [set_el set_hnd set_w wd hnd w_off act].
           unfold fupd2. change (mem k' (k :: r)) with (Nat.eqb k' k || mem k' r).
           destruct (Nat.eqb_spec i' i) as [->|]; cbn [andb]; [|reflexivity].
           destruct (Nat.eqb_spec k' k) as [->|]; cbn [andb orb]; [|reflexivity].
           rewrite A. cbn [andb]. rewrite andb_false_r. reflexivity.
        -- intros h' k'. rewrite E. unfold s1. cbn [set_el els set_hnd set_w with_flag full e_cell e_bind e_trk].
           change (mem k' (k :: r)) with (Nat.eqb k' k || mem k' r). bd.
    + assert (HL : Nat.ltb 0 (held (wd s) i k) = false).
      { apply Nat.ltb_ge. destruct (held (wd s) i k) eqn:Hh; [lia|].
        assert (act (wd s) i k = true) by (apply HA; lia). congruence. }
      rewrite HL. cbn [orb bind].
      specialize (IH s NDr (fun k' I' => G k' (or_intror I')) HA).
      destruct (existsb _ r) eqn:X; [exact IH|].
      destruct IH as (s' & R & SM & W & C & T & H & E).
      exists s'. split; [exact R|]. split; [exact SM|].
      split; [rewrite W; cbn [fold_left]; rewrite A; reflexivity|].
      split; [exact C|]. split; [exact T|]. split.
      * intros i' k'. rewrite H. change (mem k' (k :: r)) with (Nat.eqb k' k || mem k' r).
        destruct (Nat.eqb_spec i' i) as [->|]; cbn [andb]; [|reflexivity].
        destruct (Nat.eqb_spec k' k) as [->|]; cbn [andb orb]; [|reflexivity].
        rewrite A, andb_false_r. reflexivity.
      * intros h' k'. rewrite E.
        change (mem k' (k :: r)) with (Nat.eqb k' k || mem k' r). destruct Gk as (_ & Ek).
        rewrite A in Ek. bd.
Qed.

(** ** destroying elements *)
Lemma loop_destroy h i f ks : forall s,
  NoDup ks -> (forall k, In k ks -> els s h k = Some (full i k (f k))) ->
  if existsb (fun k => Nat.ltb 0 (held (wd s) i k)) ks
  then foldM (destroy_el h) s ks = Term
  else
  exists s', foldM (destroy_el h) s ks = Ok s' /\ same s s' /\ wd s' = wd s /\
    (forall i' k', cells s' i' k' = if Nat.eqb i' i && mem k' ks then None else cells s i' k') /\
    (forall i' k', trk s' i' k' = if Nat.eqb i' i && mem k' ks then false else trk s i' k') /\
    (forall i' k', hnd s' i' k' = if Nat.eqb i' i && mem k' ks then None else hnd s i' k') /\
    (forall h' k', els s' h' k' = if heqb h' h && mem k' ks then None else els s h' k').
Proof.
  induction ks as [|k r IH]; intros s ND G; cbn [foldM existsb].
  - exists s. split; [reflexivity|]. split; [apply same_refl|]. repeat split; intros; cbn;
    rewrite andb_false_r; reflexivity.
  - inversion ND as [|? ? Nk NDr]; subst.
    unfold destroy_el at 1 3. rewrite (G k (or_introl eq_refl)). cbn [full e_trk e_cell e_bind in_use].
    destruct (Nat.ltb 0 (held (wd s) i k)) eqn:HL; cbn [orb bind]; [reflexivity|].
    set (s1 := set_el (set_hnd (set_trk (set_cell s (Some (i, k)) None) (Some (i, k)) false) (Some (i, k)) None) h k None).
    specialize (IH s1 NDr).
    assert (P : forall k', In k' r -> els s1 h k' = Some (full i k' (f k'))).
    { intros k' I'. unfold s1. cbn [set_el els set_hnd set_trk set_cell]. rewrite heqb_refl. cbn [andb].
      destruct (Nat.eqb_spec k' k) as [->|]; [contradiction|]. apply G. right; exact I'. }
    specialize (IH P). change (wd s1) with (wd s) in IH.
    destruct (existsb _ r) eqn:X; [exact IH|].
    destruct IH as (s' & R & SM & W & C & T & H & E).
    exists s'. split; [exact R|]. split; [exact SM|]. split; [exact W|].
    repeat split; intros x k'; [rewrite C|rewrite T|rewrite H|rewrite E];
    unfold s1; cbn [set_el set_hnd set_trk set_cell cells trk hnd els]; unfold fupd2;
    change (mem k' (k :: r)) with (Nat.eqb k' k || mem k' r); bd.
Qed.

Lemma loop_destroy_moved h ks : forall s,
  NoDup ks -> (forall k, In k ks -> els s h k = Some moved) ->
  exists s', foldM (destroy_el h) s ks = Ok s' /\ same s s' /\ wd s' = wd s /\
    cells s' = cells s /\ trk s' = trk s /\ hnd s' = hnd s /\
    (forall h' k', els s' h' k' = if heqb h' h && mem k' ks then None else els s h' k').
Proof.
  induction ks as [|k r IH]; intros s ND G; cbn [foldM].
  - exists s. split; [reflexivity|]. split; [apply same_refl|]. repeat split; intros; cbn;
    rewrite andb_false_r; reflexivity.
  - inversion ND as [|? ? Nk NDr]; subst.
    unfold destroy_el at 1. rewrite (G k (or_introl eq_refl)).
    cbn [moved e_trk e_cell e_bind in_use set_cell set_trk set_hnd bind].
    set (s1 := set_el s h k None).
    destruct (IH s1 NDr) as (s' & R & SM & W & C & T & H & E).
    { intros k' I'. unfold s1. cbn [set_el els]. rewrite heqb_refl. cbn [andb].
      destruct (Nat.eqb_spec k' k) as [->|]; [contradiction|]. apply G. right; exact I'. }
    exists s'. split; [exact R|]. split; [exact SM|]. split; [exact W|].
    split; [exact C|]. split; [exact T|]. split; [exact H|].
    intros h' k'. rewrite E. unfold s1. cbn [set_el els].
    change (mem k' (k :: r)) with (Nat.eqb k' k || mem k' r). bd.
Qed.

(** ** moving elements into a new object *)
Lemma loop_ctor hd hs i f ks : hd <> hs -> forall s,
  NoDup ks -> (forall k, In k ks -> els s hs k = Some (full i k (f k))) ->
  exists s', foldM (ctor_el hd hs) s ks = Ok s' /\ same s s' /\ wd s' = wd s /\
    trk s' = trk s /\ hnd s' = hnd s /\
    (forall i' k', cells s' i' k' = if Nat.eqb i' i && mem k' ks then Some (hd, k') else cells s i' k') /\
    (forall h' k', els s' h' k' =
       if heqb h' hd && mem k' ks then Some (full i k' (f k'))
       else if heqb h' hs && mem k' ks then Some moved else els s h' k').
Proof.
  intros NE. induction ks as [|k r IH]; intros s ND G; cbn [foldM].
  - exists s. split; [reflexivity|]. split; [apply same_refl|]. repeat split; intros; cbn;
    rewrite ?andb_false_r; reflexivity.
  - inversion ND as [|? ? Nk NDr]; subst.
    unfold ctor_el at 1. rewrite (G k (or_introl eq_refl)). cbn [full e_cell bind].
    set (s1 := set_el (set_el (set_cell s (Some (i, k)) (Some (hd, k))) hs k (Some moved)) hd k
                 (Some {| e_cell := Some (i, k); e_bind := Some (i, k); e_flag := f k; e_trk := Some (i, k) |})).
    destruct (IH s1 NDr) as (s' & R & SM & W & T & H & C & E).
    { intros k' I'. unfold s1. cbn [set_el set_cell els].
      destruct (Nat.eqb_spec k' k) as [->|]; [contradiction|]. rewrite !andb_false_r.
      apply G. right; exact I'. }
    exists s'. split; [exact R|]. split; [exact SM|]. split; [exact W|].
    split; [exact T|]. split; [exact H|].
    split; intros x k'; [rewrite C|rewrite E];
    unfold s1; cbn [set_el set_cell cells els]; unfold fupd2;
    change (mem k' (k :: r)) with (Nat.eqb k' k || mem k' r); bd.
Qed.

(** ** assigning elements *)
Lemma loop_assign sk hd hs v i g f ks : hd <> hs -> v <> Some i -> forall s,
  NoDup ks -> (forall k, In k ks -> els s hs k = Some (full i k (f k))) ->
  (forall k, In k ks -> els s hd k = Some (elof v k (g k))) ->
  (sk = false -> forall j k, v = Some j -> held (wd s) j k = 0) ->
  if match v with None => false | Some j => existsb (fun k => Nat.ltb 0 (held (wd s) j k)) ks end
  then foldM (assign_el sk hd hs) s ks = Term
  else
  exists s', foldM (assign_el sk hd hs) s ks = Ok s' /\ same s s' /\ wd s' = wd s /\
    (forall i' k', cells s' i' k' =
       if Nat.eqb i' i && mem k' ks then Some (hd, k')
       else if match v with None => false | Some j => Nat.eqb i' j end && mem k' ks then None
       else cells s i' k') /\
    (forall i' k', trk s' i' k' =
       if match v with None => false | Some j => Nat.eqb i' j end && mem k' ks then false else trk s i' k') /\
    (forall i' k', hnd s' i' k' =
       if match v with None => false | Some j => Nat.eqb i' j end && mem k' ks then None else hnd s i' k') /\
    (forall h' k', els s' h' k' =
       if heqb h' hd && mem k' ks then Some (full i k' (f k'))
       else if heqb h' hs && mem k' ks then Some moved else els s h' k').
Proof.
  intros NE NV. induction ks as [|k r IH]; intros s ND G D HZ; cbn [foldM existsb].
  - assert (X : (match v with None => false | Some _ => false end) = false) by (destruct v; reflexivity).
    rewrite X. exists s. split; [reflexivity|]. split; [apply same_refl|]. repeat split; intros; cbn;
    rewrite ?andb_false_r; reflexivity.
  - inversion ND as [|? ? Nk NDr]; subst.
    unfold assign_el at 1 3. rewrite (G k (or_introl eq_refl)), (D k (or_introl eq_refl)).
    cbn [full e_cell].
    destruct v as [j|]; cbn [elof moved full e_cell e_trk e_bind in_use set_cell set_trk set_hnd].
    + assert (NJ : i <> j) by congruence.
      destruct (Nat.ltb 0 (held (wd s) j k)) eqn:HL.
      { destruct sk; [|rewrite (HZ eq_refl j k eq_refl) in HL; discriminate]. reflexivity. }
      rewrite andb_false_r. cbn [orb bind].
      set (s1 := set_el _ hd k _).
      specialize (IH s1 NDr).
      assert (P1 : forall k', In k' r -> els s1 hs k' = Some (full i k' (f k'))).
      { intros k' I'. unfold s1. cbn [set_el els]. destruct (Nat.eqb_spec k' k) as [->|]; [contradiction|].
        rewrite !andb_false_r. apply G. right; exact I'. }
      assert (P2 : forall k', In k' r -> els s1 hd k' = Some (elof (Some j) k' (g k'))).
      { intros k' I'. unfold s1. cbn [set_el els]. destruct (Nat.eqb_spec k' k) as [->|]; [contradiction|].
        rewrite !andb_false_r. apply D. right; exact I'. }
      specialize (IH P1 P2). change (wd s1) with (wd s) in IH. specialize (IH HZ).
      destruct (existsb _ r) eqn:X; [exact IH|].
      destruct IH as (s' & R & SM & W & C & T & H & E).
      exists s'. split; [exact R|]. split; [exact SM|]. split; [exact W|].
      repeat split; intros x k'; [rewrite C|rewrite T|rewrite H|rewrite E];
      unfold s1; cbn [set_el cells trk hnd els]; unfold fupd2;
      change (mem k' (k :: r)) with (Nat.eqb k' k || mem k' r); bd.
    + rewrite andb_false_r. cbn [orb bind].
      set (s1 := set_el _ hd k _).
      specialize (IH s1 NDr).
      assert (P1 : forall k', In k' r -> els s1 hs k' = Some (full i k' (f k'))).
      { intros k' I'. unfold s1. cbn [set_el els]. destruct (Nat.eqb_spec k' k) as [->|]; [contradiction|].
        rewrite !andb_false_r. apply G. right; exact I'. }
      assert (P2 : forall k', In k' r -> els s1 hd k' = Some (elof None k' (g k'))).
      { intros k' I'. unfold s1. cbn [set_el els]. destruct (Nat.eqb_spec k' k) as [->|]; [contradiction|].
        rewrite !andb_false_r. apply D. right; exact I'. }
      specialize (IH P1 P2). change (wd s1) with (wd s) in IH. specialize (IH HZ).
      destruct IH as (s' & R & SM & W & C & T & H & E).
      exists s'. split; [exact R|]. split; [exact SM|]. split; [exact W|].
      repeat split; intros x k'; [rewrite C|rewrite T|rewrite H|rewrite E];
      unfold s1; cbn [set_el cells trk hnd els]; unfold fupd2;
      change (mem k' (k :: r)) with (Nat.eqb k' k || mem k' r); bd.
Qed.

(** ** creating elements *)
Lemma loop_new h i ks : forall s, NoDup ks ->
  exists s', foldM (new_el h i) s ks = Ok s' /\ same s s' /\ wd s' = wd s /\ hnd s' = hnd s /\
    (forall i' k', cells s' i' k' = if Nat.eqb i' i && mem k' ks then Some (h, k') else cells s i' k') /\
    (forall i' k', trk s' i' k' = if Nat.eqb i' i && mem k' ks then true else trk s i' k') /\
    (forall h' k', els s' h' k' = if heqb h' h && mem k' ks then Some (full i k' false) else els s h' k').
Proof.
  induction ks as [|k r IH]; intros s ND; cbn [foldM].
  - exists s. split; [reflexivity|]. split; [apply same_refl|]. repeat split; intros; cbn;
    rewrite andb_false_r; reflexivity.
  - inversion ND as [|? ? Nk NDr]; subst. unfold new_el at 1. cbn [bind].
    set (s1 := set_el _ h k _).
    destruct (IH s1 NDr) as (s' & R & SM & W & H & C & T & E).
    exists s'. split; [exact R|]. split; [exact SM|]. split; [exact W|]. split; [exact H|].
    repeat split; intros x k'; [rewrite C|rewrite T|rewrite E];
    unfold s1; cbn [set_el set_cell set_trk cells trk els]; unfold fupd2;
    change (mem k' (k :: r)) with (Nat.eqb k' k || mem k' r); bd.
Qed.

(** ** offering the elements *)
Lemma loop_offer h i ks : forall s,
  NoDup ks -> (forall k, In k ks -> good s h i k) ->
  exists s', foldM elem_offer s (map (pair i) ks) = Ok s' /\ same s s' /\
    wd s' = fold_left (fun w k => w_on w i k) ks (wd s) /\
    cells s' = cells s /\ trk s' = trk s /\ hnd s' = hnd s /\
    (forall h' k', els s' h' k' =
       if heqb h' h && mem k' ks then Some (full i k' true) else els s h' k').
Proof.
  induction ks as [|k r IH]; intros s ND G; cbn [map foldM].
  - exists s. split; [reflexivity|]. split; [apply same_refl|]. repeat split. intros h' k'. cbn.
    rewrite andb_false_r. reflexivity.
  - inversion ND as [|? ? Nk NDr]; subst.
    assert (Gk := G k (or_introl eq_refl)).
    unfold elem_offer at 1. rewrite (good_at _ _ _ _ Gk). cbn [bind full e_bind].
    set (s1 := set_el _ h k _).
    destruct (IH s1 NDr) as (s' & R & SM & W & C & T & H & E).
    { intros k' I'. destruct (G k' (or_intror I')) as (C & E). split; [exact C|].
      unfold s1. cbn [set_el els set_w wd w_on act]. rewrite heqb_refl. unfold fupd2.
      rewrite Nat.eqb_refl. cbn [andb].
      destruct (Nat.eqb_spec k' k) as [->|]; [contradiction|]. exact E. }
    exists s'. split; [exact R|]. split; [exact SM|].
    split; [rewrite W; reflexivity|].
    split; [exact C|]. split; [exact T|]. split; [exact H|].
    intros h' k'. rewrite E. unfold s1. cbn [set_el els set_w with_flag full e_cell e_bind e_trk].
    change (mem k' (k :: r)) with (Nat.eqb k' k || mem k' r). bd.
Qed.

(** ** the invariant of the specification *)
Record Inv (a : sst) : Prop := {
  v_lt : forall l t i, var a l = Some (t, Some i) -> i < snxt a;
  v_uniq : forall l t i l' t', var a l = Some (t, Some i) -> var a l' = Some (t', Some i) -> l = l';
  v_new : forall i, snxt a <= i ->
    ann (sw a) i = false /\ forall k, act (sw a) i k = false /\ held (sw a) i k = 0 /\ shnd a i k = false;
  v_skel : forall l t i k, var a l = Some (t, Some i) -> skel t = true -> k < nel t ->
    act (sw a) i k = ann (sw a) i;
  v_prox : forall l t i k, var a l = Some (t, Some i) -> skel t = false ->
    0 < held (sw a) i k -> act (sw a) i k = true;
  v_held : forall i k, 0 < held (sw a) i k -> exists l t, var a l = Some (t, Some i) /\ k < nel t;
  v_hnd : forall i k, shnd a i k = true ->
    exists l t, var a l = Some (t, Some i) /\ k < nel t /\ skel t = false;
  v_ann : forall i, ann (sw a) i = true -> exists l t, var a l = Some (t, Some i) /\ skel t = true
}.

Lemma any_held_false w t i : any_held w t i = false -> forall k, k < nel t -> held w i k = 0.
Proof.
  unfold any_held. intros H k L.
  assert (X : Nat.ltb 0 (held w i k) = false).
  { destruct (Nat.ltb 0 (held w i k)) eqn:E; [|reflexivity].
    assert (existsb (fun k => Nat.ltb 0 (held w i k)) (seq 0 (nel t)) = true).
    { apply existsb_exists. exists k. split; [apply in_seq; lia|exact E]. }
    congruence. }
  apply Nat.ltb_ge in X. lia.
Qed.

Lemma stopped_ann w t i j : skel t = true \/ ann w i = false ->
  ann (stopped w t i) j = if Nat.eqb j i then false else ann w j.
Proof.
  unfold stopped, off_all. intros H. destruct (skel t).
  - destruct (ann w i) eqn:A; [rewrite off_ann; reflexivity|].
    destruct (Nat.eqb_spec j i) as [->|]; [exact A|reflexivity].
  - rewrite off_ann. destruct (Nat.eqb_spec j i) as [->|]; [destruct H; congruence|reflexivity].
Qed.

Lemma stopped_ann_other w t i j : j <> i -> ann (stopped w t i) j = ann w j.
Proof.
  unfold stopped, off_all. intros H. destruct (skel t); [destruct (ann w i)|]; rewrite ?off_ann; try reflexivity.
  cbn. unfold fupd. destruct (Nat.eqb_spec j i); congruence.
Qed.

Lemma stopped_held w t i : held (stopped w t i) = held w.
Proof. unfold stopped, off_all. destruct (skel t); [destruct (ann w i)|]; rewrite ?off_held; reflexivity. Qed.

Lemma stopped_act_other w t i j k : j <> i -> act (stopped w t i) j k = act w j k.
Proof.
  unfold stopped, off_all. intros H. destruct (skel t); [destruct (ann w i)|]; rewrite ?off_act; try reflexivity;
  destruct (Nat.eqb_spec j i); try congruence; reflexivity.
Qed.

Lemma stopped_act w t i k :
  (skel t = true -> ann w i = false -> act w i k = false) ->
  k < nel t -> act (stopped w t i) i k = false.
Proof.
  unfold stopped, off_all. intros H L. apply Nat.ltb_lt in L. rewrite <- mem_seq in L.
  destruct (skel t); [destruct (ann w i) eqn:A|]; rewrite ?off_act, ?Nat.eqb_refl, ?L; auto.
Qed.

Lemma stopped_act_big w t i k : nel t <= k -> act (stopped w t i) i k = act w i k.
Proof.
  intros L. assert (M : mem k (seq 0 (nel t)) = false) by (rewrite mem_seq; apply Nat.ltb_ge; exact L).
  unfold stopped, off_all. destruct (skel t); [destruct (ann w i)|]; rewrite ?off_act, ?M, ?andb_false_r; reflexivity.
Qed.

Lemma inv0 : Inv a0.
Proof. constructor; cbn; intros; try discriminate; try lia; repeat split; intros; try discriminate; try lia. Qed.

(** changing only the world of one service, keeping announcements *)
Lemma var_upd a l x l' : var (with_var a l x) l' = if Nat.eqb l' l then x else var a l'.
Proof. reflexivity. Qed.

Lemma inv_end a l t i a1 : Inv a -> var a l = Some (t, Some i) -> s_end a t i = Ok a1 ->
  Inv a1 /\ var a1 = var a /\ snxt a1 = snxt a /\ ann (sw a1) i = false /\
  (forall k, held (sw a1) i k = 0) /\ (forall k, shnd a1 i k = false) /\
  sw a1 = stopped (sw a) t i.
Proof.
  intros V E S. unfold s_end in S. destruct (any_held (sw a) t i) eqn:AH; [discriminate|].
  injection S as <-. cbn [var snxt sw shnd].
  assert (AF : skel t = true \/ ann (sw a) i = false).
  { destruct (skel t) eqn:ST; [left; reflexivity|right].
    destruct (ann (sw a) i) eqn:A; [|reflexivity].
    destruct (v_ann a V i A) as (l' & t' & E' & S'). assert (l = l') by (eapply (v_uniq a V); eassumption).
    subst l'. rewrite E in E'. injection E' as <-. congruence. }
  assert (HZ : forall k, held (sw a) i k = 0).
  { intros k. destruct (held (sw a) i k) eqn:Hk; [reflexivity|].
    destruct (v_held a V i k ltac:(lia)) as (l' & t' & E' & L'). assert (l = l') by (eapply (v_uniq a V); eassumption).
    subst l'. rewrite E in E'. injection E' as <-. rewrite (any_held_false _ _ _ AH k L') in Hk. discriminate. }
  assert (SZ : forall k, (if Nat.eqb i i && Nat.ltb k (nel t) then false else shnd a i k) = false).
  { intros k. rewrite Nat.eqb_refl. cbn [andb]. destruct (Nat.ltb_spec k (nel t)) as [|G]; [reflexivity|].
    destruct (shnd a i k) eqn:Hk; [|reflexivity].
    destruct (v_hnd a V i k Hk) as (l' & t' & E' & L' & _). assert (l = l') by (eapply (v_uniq a V); eassumption).
    subst l'. rewrite E in E'. injection E' as <-. lia. }
  split.
  - constructor; cbn [var snxt sw shnd].
    + apply V.
    + apply V.
    + intros j L. assert (j <> i) by (pose proof (v_lt a V l t i E); lia).
      rewrite stopped_ann_other by assumption. destruct (v_new a V j L) as (A & B). split; [exact A|].
      intros k. rewrite stopped_act_other by assumption. rewrite stopped_held.
      destruct (B k) as (B1 & B2 & B3). rewrite B3. destruct (_ && _); auto.
    + intros l' t' j k E' S' L'. destruct (Nat.eq_dec j i) as [->|N].
      * assert (l = l') by (eapply (v_uniq a V); eassumption). subst l'. rewrite E in E'. injection E' as <-.
        rewrite stopped_ann by exact AF. rewrite Nat.eqb_refl.
        apply stopped_act; [|exact L']. intros _ A. rewrite (v_skel a V l t i k E S' L'). exact A.
      * rewrite stopped_ann_other, stopped_act_other by assumption. eapply (v_skel a V); eassumption.
    + intros l' t' j k E' S'. rewrite stopped_held. intros Hh. destruct (Nat.eq_dec j i) as [->|N].
      * rewrite HZ in Hh. lia.
      * rewrite stopped_act_other by assumption. eapply (v_prox a V); eassumption.
    + intros j k. rewrite stopped_held. apply V.
    + intros j k. destruct (_ && _); [discriminate|]. apply V.
    + intros j A. destruct (Nat.eq_dec j i) as [->|N].
      * rewrite stopped_ann, Nat.eqb_refl in A by exact AF. discriminate.
      * rewrite stopped_ann_other in A by assumption. apply V. exact A.
  - split; [reflexivity|]. split; [reflexivity|].
    split; [rewrite stopped_ann by exact AF; rewrite Nat.eqb_refl; reflexivity|].
    split; [rewrite stopped_held; exact HZ|]. split; [exact SZ|reflexivity].
Qed.

(** moving the value of one variable to another, whose own value is over *)
Lemma inv_move a d r t v :
  Inv a -> d <> r -> var a r = Some (t, v) ->
  (forall t' i, var a d = Some (t', Some i) ->
     ann (sw a) i = false /\ (forall k, held (sw a) i k = 0) /\ (forall k, shnd a i k = false)) ->
  Inv (with_var (with_var a r (Some (t, None))) d (Some (t, v))).
Proof.
  intros V N E D.
  assert (K : forall l t' i, var (with_var (with_var a r (Some (t, None))) d (Some (t, v))) l = Some (t', Some i) ->
            exists l0, var a l0 = Some (t', Some i) /\ (l0 = if Nat.eqb l d then r else l)).
  { intros l t' i. rewrite !var_upd. destruct (Nat.eqb_spec l d) as [->|Nd].
    - intros [= <- ->]. exists r. auto.
    - destruct (Nat.eqb_spec l r) as [->|Nr]; [discriminate|]. intros H. exists l. auto. }
  assert (K' : forall l t' i, var a l = Some (t', Some i) -> l <> d ->
     exists l0, var (with_var (with_var a r (Some (t, None))) d (Some (t, v))) l0 = Some (t', Some i)).
  { intros l t' i H Nd. destruct (Nat.eq_dec l r) as [->|Nr].
    - exists d. rewrite var_upd, Nat.eqb_refl. rewrite E in H. exact H.
    - exists l. rewrite !var_upd. destruct (Nat.eqb_spec l d); [contradiction|].
      destruct (Nat.eqb_spec l r); [contradiction|]. exact H. }
  constructor; cbn [with_var sw shnd snxt].
  - intros l t' i H. destruct (K _ _ _ H) as (l0 & H0 & _). eapply (v_lt a V); eassumption.
  - intros l1 t1 i l2 t2 H1 H2. destruct (K _ _ _ H1) as (x1 & X1 & E1). destruct (K _ _ _ H2) as (x2 & X2 & E2).
    assert (Q : x1 = x2) by (eapply (v_uniq a V); eassumption). clear X1 X2. rewrite E1, E2 in Q. clear E1 E2.
    rewrite !var_upd in H1, H2.
    destruct (Nat.eqb_spec l1 d) as [->|], (Nat.eqb_spec l2 d) as [->|]; try reflexivity.
    + subst l2. rewrite Nat.eqb_refl in H2. discriminate.
    + subst l1. rewrite Nat.eqb_refl in H1. discriminate.
    + exact Q.
  - apply V.
  - intros l t' i k H. destruct (K _ _ _ H) as (l0 & H0 & _). eapply (v_skel a V); eassumption.
  - intros l t' i k H. destruct (K _ _ _ H) as (l0 & H0 & _). eapply (v_prox a V); eassumption.
  - intros i k Hh. destruct (v_held a V i k Hh) as (l & t' & H & L).
    destruct (Nat.eq_dec l d) as [->|Nd].
    + destruct (D _ _ H) as (_ & Z & _). rewrite Z in Hh. lia.
    + destruct (K' _ _ _ H Nd) as (l0 & H0). eauto.
  - intros i k Hh. destruct (v_hnd a V i k Hh) as (l & t' & H & L).
    destruct (Nat.eq_dec l d) as [->|Nd].
    + destruct (D _ _ H) as (_ & _ & Z). rewrite Z in Hh. discriminate.
    + destruct (K' _ _ _ H Nd) as (l0 & H0). eauto.
  - intros i Hh. destruct (v_ann a V i Hh) as (l & t' & H & L).
    destruct (Nat.eq_dec l d) as [->|Nd].
    + destruct (D _ _ H) as (Z & _). rewrite Z in Hh. discriminate.
    + destruct (K' _ _ _ H Nd) as (l0 & H0). eauto.
Qed.

Lemma inv_drop a l : Inv a ->
  (forall t' i, var a l = Some (t', Some i) ->
     ann (sw a) i = false /\ (forall k, held (sw a) i k = 0) /\ (forall k, shnd a i k = false)) ->
  Inv (with_var a l None).
Proof.
  intros V D.
  assert (K : forall l' t' i, var (with_var a l None) l' = Some (t', Some i) -> var a l' = Some (t', Some i)).
  { intros l' t' i. rewrite var_upd. destruct (Nat.eqb_spec l' l); [discriminate|auto]. }
  assert (K' : forall l' t' i, var a l' = Some (t', Some i) -> l' <> l -> var (with_var a l None) l' = Some (t', Some i)).
  { intros l' t' i H N. rewrite var_upd. destruct (Nat.eqb_spec l' l); [contradiction|exact H]. }
  constructor; cbn [with_var sw shnd snxt].
  - intros l' t' i H. apply K in H. eapply (v_lt a V); eassumption.
  - intros l1 t1 i l2 t2 H1 H2. apply K in H1, H2. eapply (v_uniq a V); eassumption.
  - apply V.
  - intros l' t' i k H. apply K in H. eapply (v_skel a V); eassumption.
  - intros l' t' i k H. apply K in H. eapply (v_prox a V); eassumption.
  - intros i k Hh. destruct (v_held a V i k Hh) as (l' & t' & H & L).
    destruct (Nat.eq_dec l' l) as [->|Nd].
    + destruct (D _ _ H) as (_ & Z & _). rewrite Z in Hh. lia.
    + exists l', t'. split; [apply K'; assumption|exact L].
  - intros i k Hh. destruct (v_hnd a V i k Hh) as (l' & t' & H & L).
    destruct (Nat.eq_dec l' l) as [->|Nd].
    + destruct (D _ _ H) as (_ & _ & Z). rewrite Z in Hh. discriminate.
    + exists l', t'. split; [apply K'; assumption|exact L].
  - intros i Hh. destruct (v_ann a V i Hh) as (l' & t' & H & L).
    destruct (Nat.eq_dec l' l) as [->|Nd].
    + destruct (D _ _ H) as (Z & _). rewrite Z in Hh. discriminate.
    + exists l', t'. split; [apply K'; assumption|exact L].
Qed.

(** a change of the world that concerns only service [i] *)
Lemma inv_world a l t i w h :
  Inv a -> var a l = Some (t, Some i) ->
  (forall j, j <> i -> ann w j = ann (sw a) j /\ (forall k, act w j k = act (sw a) j k /\
     held w j k = held (sw a) j k /\ h j k = shnd a j k)) ->
  (skel t = true -> forall k, k < nel t -> act w i k = ann w i) ->
  (skel t = false -> ann w i = false /\ forall k, 0 < held w i k -> act w i k = true) ->
  (forall k, nel t <= k -> held w i k = 0) ->
  (forall k, h i k = true -> k < nel t /\ skel t = false) ->
  Inv (mkS (var a) w h (snxt a)).
Proof.
  intros V E O S P Z H.
  assert (U : forall l' t', var a l' = Some (t', Some i) -> l' = l /\ t' = t).
  { intros l' t' E'. assert (l = l') by (eapply (v_uniq a V); eassumption). subst l'.
    rewrite E in E'. injection E' as <-. auto. }
  constructor; cbn [var sw shnd snxt].
  - apply V.
  - apply V.
  - intros j L. assert (j <> i) by (pose proof (v_lt a V l t i E); lia).
    destruct (O j H0) as (A & B). rewrite A. destruct (v_new a V j L) as (A' & B'). split; [exact A'|].
    intros k. destruct (B k) as (-> & -> & ->). apply B'.
  - intros l' t' j k E' S' L'. destruct (Nat.eq_dec j i) as [->|N].
    + destruct (U _ _ E') as (-> & ->). apply S; assumption.
    + destruct (O j N) as (-> & B). destruct (B k) as (-> & _). eapply (v_skel a V); eassumption.
  - intros l' t' j k E' S'. destruct (Nat.eq_dec j i) as [->|N].
    + destruct (U _ _ E') as (-> & ->). destruct (P S') as (_ & P'). apply P'.
    + destruct (O j N) as (_ & B). destruct (B k) as (-> & -> & _). eapply (v_prox a V); eassumption.
  - intros j k Hh. destruct (Nat.eq_dec j i) as [->|N].
    + exists l, t. split; [exact E|]. destruct (Nat.lt_ge_cases k (nel t)) as [|G]; [assumption|].
      rewrite (Z k G) in Hh. lia.
    + destruct (O j N) as (_ & B). destruct (B k) as (_ & B' & _). rewrite B' in Hh. apply (v_held a V). exact Hh.
  - intros j k Hh. destruct (Nat.eq_dec j i) as [->|N].
    + exists l, t. split; [exact E|]. apply H. exact Hh.
    + destruct (O j N) as (_ & B). destruct (B k) as (_ & _ & B'). rewrite B' in Hh. apply (v_hnd a V). exact Hh.
  - intros j Hh. destruct (Nat.eq_dec j i) as [->|N].
    + exists l, t. split; [exact E|]. destruct (skel t) eqn:ST; [reflexivity|].
      destruct (P eq_refl) as (P' & _). congruence.
    + destruct (O j N) as (A & _). rewrite A in Hh. apply (v_ann a V). exact Hh.
Qed.

Lemma inv_say a e : Inv a -> Inv (with_w a (say (sw a) e)).
Proof. intros V. destruct V. constructor; cbn [with_w say var sw shnd snxt ann act held]; assumption. Qed.

Lemma prox_ann a l t i : Inv a -> var a l = Some (t, Some i) -> skel t = false -> ann (sw a) i = false.
Proof.
  intros V E S. destruct (ann (sw a) i) eqn:A; [|reflexivity].
  destruct (v_ann a V i A) as (l' & t' & E' & S'). assert (l = l') by (eapply (v_uniq a V); eassumption).
  subst l'. rewrite E in E'. injection E' as <-. congruence.
Qed.

Lemma big_held a l t i k : Inv a -> var a l = Some (t, Some i) -> nel t <= k -> held (sw a) i k = 0.
Proof.
  intros V E L. destruct (held (sw a) i k) eqn:Hk; [reflexivity|].
  destruct (v_held a V i k ltac:(lia)) as (l' & t' & E' & L'). assert (l = l') by (eapply (v_uniq a V); eassumption).
  subst l'. rewrite E in E'. injection E' as <-. lia.
Qed.

Lemma hnd_ok a l t i k : Inv a -> var a l = Some (t, Some i) -> shnd a i k = true -> k < nel t /\ skel t = false.
Proof.
  intros V E Hk.
  destruct (v_hnd a V i k Hk) as (l' & t' & E' & L'). assert (l = l') by (eapply (v_uniq a V); eassumption).
  subst l'. rewrite E in E'. injection E' as <-. exact L'.
Qed.

Lemma inv_step traced a o a' : Inv a -> legal traced a o -> s_step a o = Ok a' -> Inv a'.
Proof.
  intros V L S. destruct o as [l t|d r|d r|l|l|l|l k|l k|i k|l k|l k|l k|i k]; cbn [legal s_step] in L, S.
  - (* Create *)
    injection S as <-. destruct (v_new a V (snxt a) (Nat.le_refl _)) as (A & B).
    assert (K : forall l' t' i, fupd (var a) l (Some (t, Some (snxt a))) l' = Some (t', Some i) ->
                (l' = l /\ t' = t /\ i = snxt a) \/ (l' <> l /\ var a l' = Some (t', Some i))).
    { intros l' t' i. unfold fupd. destruct (Nat.eqb_spec l' l) as [->|]; [intros [= <- <-]; auto|auto]. }
    assert (K' : forall l' t' i, var a l' = Some (t', Some i) -> fupd (var a) l (Some (t, Some (snxt a))) l' = Some (t', Some i)).
    { intros l' t' i H. unfold fupd. destruct (Nat.eqb_spec l' l) as [->|]; [congruence|exact H]. }
    constructor; cbn [var sw shnd snxt].
    + intros l' t' i H. destruct (K _ _ _ H) as [(_ & _ & ->)|(_ & H')]; [lia|]. pose proof (v_lt a V _ _ _ H'). lia.
    + intros l1 t1 i l2 t2 H1 H2.
      destruct (K _ _ _ H1) as [(-> & _ & E1)|(_ & H1')], (K _ _ _ H2) as [(-> & _ & E2)|(_ & H2')].
      * reflexivity.
      * pose proof (v_lt a V _ _ _ H2'). lia.
      * pose proof (v_lt a V _ _ _ H1'). lia.
      * eapply (v_uniq a V); eassumption.
    + intros i G. apply (v_new a V). lia.
    + intros l' t' i k H S' G. destruct (K _ _ _ H) as [(_ & _ & ->)|(_ & H')].
      * rewrite A. destruct (B k) as (-> & _). reflexivity.
      * eapply (v_skel a V); eassumption.
    + intros l' t' i k H S' G. destruct (K _ _ _ H) as [(_ & _ & ->)|(_ & H')].
      * destruct (B k) as (_ & Z & _). rewrite Z in G. lia.
      * eapply (v_prox a V); eassumption.
    + intros i k G. destruct (v_held a V i k G) as (l' & t' & H & G'). eauto.
    + intros i k G. destruct (v_hnd a V i k G) as (l' & t' & H & G'). eauto.
    + intros i G. destruct (v_ann a V i G) as (l' & t' & H & G'). eauto.
  - (* MoveCtor *)
    destruct L as (Ld & t & v & Er & _). rewrite Er in S. injection S as <-.
    apply inv_move; [exact V|congruence|exact Er|]. intros t' i H. congruence.
  - (* MoveAssign *)
    destruct L as (t & v & v' & Ed & Er & _ & _). rewrite Ed, Er in S.
    destruct (Nat.eqb_spec d r) as [->|N]; [injection S as <-; exact V|].
    unfold s_end_opt in S. destruct v as [i|].
    + destruct (s_end a t i) as [a1| |] eqn:SE; cbn [bind] in S; [|discriminate|discriminate].
      injection S as <-. destruct (inv_end a d t i a1 V Ed SE) as (V1 & VV & _ & A & Hh & Sh & _).
      apply inv_move; [exact V1|exact N|rewrite VV; exact Er|].
      intros t' j H. rewrite VV, Ed in H. injection H as _ <-. auto.
    + cbn [bind] in S. injection S as <-. apply inv_move; [exact V|exact N|exact Er|].
      intros t' j H. congruence.
  - (* Destroy *)
    destruct L as (t & v & El & _). rewrite El in S. unfold s_end_opt in S. destruct v as [i|].
    + destruct (s_end a t i) as [a1| |] eqn:SE; cbn [bind] in S; [|discriminate|discriminate].
      injection S as <-. destruct (inv_end a l t i a1 V El SE) as (V1 & VV & _ & A & Hh & Sh & _).
      apply inv_drop; [exact V1|]. intros t' j H. rewrite VV, El in H. injection H as _ <-. auto.
    + cbn [bind] in S. injection S as <-. apply inv_drop; [exact V|]. intros t' j H. congruence.
  - (* Offer *)
    destruct L as (t & i & El & St & An). rewrite El in S. injection S as <-.
    unfold on_all. eapply inv_world; [exact V|exact El| | | | |].
    + intros j N. cbn [w_announce ann act held]. rewrite on_ann, on_held. unfold fupd.
      destruct (Nat.eqb_spec j i); [contradiction|]. split; [reflexivity|]. intros k. rewrite on_act.
      destruct (Nat.eqb_spec j i); [contradiction|]. auto.
    + intros _ k G. cbn [w_announce ann act]. rewrite fupd_eq, on_act, Nat.eqb_refl, mem_seq.
      apply Nat.ltb_lt in G. rewrite G. reflexivity.
    + intros F. congruence.
    + intros k G. cbn [w_announce held]. rewrite on_held. eapply big_held; eassumption.
    + intros k G. eapply hnd_ok; eassumption.
  - (* Stop *)
    destruct L as (t & v & El & St). rewrite El in S. destruct v as [i|]; [|injection S as <-; exact V].
    injection S as <-. eapply inv_world; [exact V|exact El| | | | |].
    + intros j N. rewrite stopped_ann_other, stopped_held by exact N. split; [reflexivity|].
      intros k. rewrite stopped_act_other by exact N. auto.
    + intros _ k G. rewrite stopped_ann by auto. rewrite Nat.eqb_refl. apply stopped_act; [|exact G].
      intros _ A. rewrite (v_skel a V l t i k El St G). exact A.
    + intros F. congruence.
    + intros k G. rewrite stopped_held. eapply big_held; eassumption.
    + intros k G. eapply hnd_ok; eassumption.
  - (* Use *)
    destruct L as (t & v & El & Lk & _). rewrite El in S. destruct v as [i|]; injection S as <-; apply inv_say; exact V.
  - (* Take *)
    destruct L as (t & v & El & Lk & _). rewrite El in S. destruct v as [i|]; injection S as <-; [|apply inv_say; exact V].
    destruct (if skel t then ann (sw a) i else act (sw a) i k) eqn:C; [|apply inv_say; exact V].
    eapply inv_world; [exact V|exact El| | | | |].
    + intros j N. cbn [w_take ann act held]. split; [reflexivity|]. intros k'. unfold fupd2.
      destruct (Nat.eqb_spec j i); [contradiction|]. auto.
    + intros St k' G. cbn [w_take ann act]. eapply (v_skel a V); eassumption.
    + intros St. cbn [w_take ann act held]. split; [eapply prox_ann; eassumption|].
      intros k'. unfold fupd2. rewrite Nat.eqb_refl. cbn [andb]. destruct (Nat.eqb_spec k' k) as [->|].
      * intros _. rewrite St in C. exact C.
      * eapply (v_prox a V); eassumption.
    + intros k' G. cbn [w_take held]. unfold fupd2. rewrite Nat.eqb_refl. cbn [andb].
      destruct (Nat.eqb_spec k' k) as [->|]; [lia|]. eapply big_held; eassumption.
    + intros k' G. eapply hnd_ok; eassumption.
  - (* Give *)
    injection S as <-. destruct (v_held a V i k L) as (l & t & El & Lk).
    eapply inv_world; [exact V|exact El| | | | |].
    + intros j N. cbn [w_give ann act held]. split; [reflexivity|]. intros k'. unfold fupd2.
      destruct (Nat.eqb_spec j i); [contradiction|]. auto.
    + intros St k' G. cbn [w_give ann act]. eapply (v_skel a V); eassumption.
    + intros St. cbn [w_give ann act held]. split; [eapply prox_ann; eassumption|].
      intros k'. unfold fupd2. rewrite Nat.eqb_refl. cbn [andb]. destruct (Nat.eqb_spec k' k) as [->|].
      * intros _. eapply (v_prox a V); eassumption.
      * eapply (v_prox a V); eassumption.
    + intros k' G. cbn [w_give held]. unfold fupd2. rewrite Nat.eqb_refl. cbn [andb].
      destruct (Nat.eqb_spec k' k) as [->|]; [lia|]. eapply big_held; eassumption.
    + intros k' G. eapply hnd_ok; eassumption.
  - (* Subscribe *)
    destruct L as (t & i & El & St & Lk). rewrite El in S. injection S as <-.
    destruct (act (sw a) i k) eqn:A; [destruct a; exact V|].
    eapply inv_world; [exact V|exact El| | | | |].
    + intros j N. cbn [w_on ann act held]. split; [reflexivity|]. intros k'. unfold fupd2.
      destruct (Nat.eqb_spec j i); [contradiction|]. auto.
    + intros F. congruence.
    + intros _. cbn [w_on ann act held]. split; [eapply prox_ann; eassumption|].
      intros k' G. unfold fupd2. rewrite Nat.eqb_refl. cbn [andb]. destruct (Nat.eqb_spec k' k) as [->|]; [reflexivity|].
      eapply (v_prox a V); eassumption.
    + intros k' G. eapply big_held; eassumption.
    + intros k' G. eapply hnd_ok; eassumption.
  - (* Unsubscribe *)
    destruct L as (t & i & El & St & Lk). rewrite El in S.
    destruct (act (sw a) i k) eqn:A; [|injection S as <-; exact V].
    destruct (Nat.ltb 0 (held (sw a) i k)) eqn:HL; [discriminate|]. injection S as <-.
    eapply inv_world; [exact V|exact El| | | | |].
    + intros j N. cbn [w_off ann act held]. split; [reflexivity|]. intros k'. unfold fupd2.
      destruct (Nat.eqb_spec j i); [contradiction|]. auto.
    + intros F. congruence.
    + intros _. cbn [w_off ann act held]. split; [eapply prox_ann; eassumption|].
      intros k' G. unfold fupd2. rewrite Nat.eqb_refl. cbn [andb]. destruct (Nat.eqb_spec k' k) as [->|].
      * apply Nat.ltb_ge in HL. lia.
      * eapply (v_prox a V); eassumption.
    + intros k' G. eapply big_held; eassumption.
    + intros k'. unfold fupd2. destruct (_ && _); [discriminate|]. intros G. eapply hnd_ok; eassumption.
  - (* SetHandler *)
    destruct L as (t & i & El & St & Lk). rewrite El in S. injection S as <-.
    eapply inv_world; [exact V|exact El| | | | |].
    + intros j N. cbn [say ann act held]. split; [reflexivity|]. intros k'. unfold fupd2.
      destruct (Nat.eqb_spec j i); [contradiction|]. auto.
    + intros F. congruence.
    + intros _. cbn [say ann act held]. split; [eapply prox_ann; eassumption|].
      intros k' G. eapply (v_prox a V); eassumption.
    + intros k' G. eapply big_held; eassumption.
    + intros k'. unfold fupd2. destruct (_ && Nat.eqb k' k) eqn:X.
      * apply andb_true_iff in X. destruct X as (_ & X). apply Nat.eqb_eq in X. subst. auto.
      * intros G. eapply hnd_ok; eassumption.
  - (* Notify *)
    injection S as <-. destruct (_ && _); [apply inv_say|]; exact V.
Qed.

(** ** the simulation *)
Definition hm (t : ty) (l i : nat) : home := if gen t then OnHeap i else InObj l.

Definition live_obj (t : ty) (i : nat) (f : bool) : obj :=
  mkO t (Some i) (map (pair i) (seq 0 (nel t))) f (negb (skel t && gen t)) (if gen t then Some i else None).

Definition body (traced : bool) (s : cst) (w : world) (l : nat) (t : ty) (v : option nat) (o : obj) : Prop :=
  match v with
  | Some i =>
    o = live_obj t i (skel t && ann w i) /\
    (forall k, k < nel t ->
       cells s i k = Some (hm t l i, k) /\ els s (hm t l i) k = Some (full i k (act w i k)) /\ trk s i k = true) /\
    (skel t = true -> ann w i = false -> prepc s i && negb (stopc s i) = false) /\
    (forall k h j, traced = true -> hnd s i k = Some (h, j) -> h = hm t l i /\ j = k)
  | None =>
    o = mkO t None [] false false None /\
    (gen t = false -> forall k, k < nel t -> els s (InObj l) k = Some moved)
  end.

Definition R (traced : bool) (s : cst) (a : sst) : Prop :=
  wd s = sw a /\ nxt s = snxt a /\
  (forall i k, (hnd s i k = None) <-> (shnd a i k = false)) /\
  (forall l, match var a l with
             | None => objs s l = None
             | Some (t, v) => exists o, objs s l = Some o /\ body traced s (sw a) l t v o
             end).

Lemma body_frame traced s s' w w' l t v o :
  body traced s w l t v o ->
  match v with
  | Some i =>
    (forall k, k < nel t -> cells s' i k = cells s i k /\ trk s' i k = trk s i k /\
       els s' (hm t l i) k = els s (hm t l i) k /\ act w' i k = act w i k) /\
    ann w' i = ann w i /\ prepc s' i = prepc s i /\ stopc s' i = stopc s i /\
    (forall k, hnd s' i k = hnd s i k)
  | None => gen t = false -> forall k, k < nel t -> els s' (InObj l) k = els s (InObj l) k
  end ->
  body traced s' w' l t v o.
Proof.
  destruct v as [i|]; cbn [body].
  - intros (A & B & C & D) (E & F & G & H & J). rewrite F, G, H.
    split; [exact A|]. split; [|split; [exact C|]].
    + intros k L. destruct (E k L) as (-> & -> & -> & ->). apply B. exact L.
    + intros k h j T. rewrite J. apply D. exact T.
  - intros (A & B) E. split; [exact A|]. intros G k L. rewrite (E G k L). apply B; assumption.
Qed.

Lemma hm_neq t l i t' l' i' : l <> l' -> i <> i' -> hm t' l' i' <> hm t l i.
Proof. unfold hm. destruct (gen t), (gen t'); congruence. Qed.

Lemma inobj_neq t l i l' : l <> l' -> InObj l' <> hm t l i.
Proof. unfold hm. destruct (gen t); congruence. Qed.

Lemma nodup_ks n : NoDup (seq 0 n).
Proof. apply seq_NoDup. Qed.

Definition off_obj (o : obj) : obj := mkO (o_ty o) (o_bind o) (o_map o) false (o_owner o) (o_home o).

Lemma close_live s l t i f : close s l (live_obj t i f) =
  if skel t then (if gen t then Ok s else stop_offer s l (live_obj t i f)) else deinit s (live_obj t i f).
Proof. unfold close, live_obj; cbn [o_owner o_ty]. destruct (skel t), (gen t); reflexivity. Qed.

Lemma stop_live s l t i f : stop_offer s l (live_obj t i f) =
  if f then do s1 <- foldM elem_stop (set_w s (w_withdraw (wd s) i)) (map (pair i) (seq 0 (nel t))) ;
            Ok (set_obj (set_stopc s1 i) l (Some (live_obj t i false)))
  else Ok s.
Proof. reflexivity. Qed.

Lemma deinit_live s t i f : deinit s (live_obj t i f) =
  do s1 <- foldM elem_unsub s (map (pair i) (seq 0 (nel t))) ; Ok (set_stopc s1 i).
Proof. reflexivity. Qed.

Lemma close_sim traced s a l t i o :
  Inv a -> R traced s a -> var a l = Some (t, Some i) -> may_end a t (Some i) ->
  objs s l = Some o -> body traced s (sw a) l t (Some i) o ->
  if negb (skel t) && any_held (sw a) t i then close s l o = Term
  else exists s1, close s l o = Ok s1 /\
    objs s1 l = Some (live_obj t i false) /\ (forall l', l' <> l -> objs s1 l' = objs s l') /\
    nxt s1 = nxt s /\ wd s1 = stopped (sw a) t i /\ cells s1 = cells s /\ trk s1 = trk s /\
    (forall i' k, i' <> i -> hnd s1 i' k = hnd s i' k) /\
    (forall k, hnd s1 i k = hnd s i k \/ (hnd s1 i k = None /\ k < nel t)) /\
    (forall h' k', els s1 h' k' =
       if heqb h' (hm t l i) && mem k' (seq 0 (nel t)) then Some (full i k' false) else els s h' k') /\
    prepc s1 i && negb (stopc s1 i) = false /\
    (forall j, j <> i -> prepc s1 j = prepc s j /\ stopc s1 j = stopc s j).
Proof.
  intros V (RW & RN & RH & RO) E ME EO (BO & BE & BP & BH). subst o.
  assert (GD : forall k, In k (seq 0 (nel t)) -> forall w', act w' i k = act (sw a) i k -> good (set_w s w') (hm t l i) i k).
  { intros k I w' AW. apply in_seq in I. destruct (BE k ltac:(lia)) as (A & B & _). split; [exact A|].
    cbn [set_w els wd]. rewrite AW. exact B. }
  rewrite close_live.
  destruct (skel t) eqn:ST; cbn [negb andb].
  - destruct (gen t) eqn:GT.
    + (* generic skeleton: not offered *)
      assert (AN : ann (sw a) i = false) by (apply ME; auto).
      exists s. split; [reflexivity|]. rewrite AN in EO. cbn [andb] in EO.
      unfold stopped. rewrite ST, AN. split; [exact EO|]. split; [auto|]. split; [reflexivity|].
      split; [exact RW|]. split; [reflexivity|]. split; [reflexivity|]. split; [auto|]. split; [auto|].
      split; [|split; [apply BP; auto|auto]].
      intros h' k'. destruct (heqb_spec h' (hm t l i)) as [->|]; cbn [andb]; [|reflexivity].
      rewrite mem_seq. destruct (Nat.ltb_spec k' (nel t)) as [L|]; [|reflexivity].
      destruct (BE k' L) as (_ & B & _). rewrite B. rewrite (v_skel a V l t i k' E ST L), AN. reflexivity.
    + rewrite stop_live.
      destruct (ann (sw a) i) eqn:AN.
      * rewrite RW.
        destruct (loop_stop (hm t l i) i (seq 0 (nel t)) (set_w s (w_withdraw (sw a) i)) (nodup_ks _)) as
          (s' & F & (S1 & S2 & S3 & S4) & W & C & T & H & EL).
        { intros k I. apply GD; [exact I|reflexivity]. }
        rewrite F. cbn [bind]. eexists. split; [reflexivity|].
        cbn [set_obj set_stopc objs nxt wd cells trk hnd els prepc stopc o_ty o_bind o_map o_owner o_home].
        split; [rewrite fupd_eq; reflexivity|].
        split; [intros l' N; rewrite fupd_neq by exact N; rewrite S1; reflexivity|].
        split; [exact S4|]. split; [rewrite W; unfold stopped, off_all; rewrite ST, AN; reflexivity|].
        split; [exact C|]. split; [exact T|]. split; [intros; rewrite H; reflexivity|].
        split; [intros; left; rewrite H; reflexivity|]. split; [exact EL|].
        rewrite fupd_eq. split; [rewrite andb_false_r; reflexivity|].
        intros j N. rewrite fupd_neq by exact N. rewrite S2, S3. auto.
      * exists s. split; [reflexivity|]. cbn [andb] in EO. unfold stopped. rewrite ST, AN.
        split; [exact EO|]. split; [auto|]. split; [reflexivity|].
        split; [exact RW|]. split; [reflexivity|]. split; [reflexivity|]. split; [auto|]. split; [auto|].
        split; [|split; [apply BP; auto|auto]].
        intros h' k'. destruct (heqb_spec h' (hm t l i)) as [->|]; cbn [andb]; [|reflexivity].
        rewrite mem_seq. destruct (Nat.ltb_spec k' (nel t)) as [L|]; [|reflexivity].
        destruct (BE k' L) as (_ & B & _). rewrite B. rewrite (v_skel a V l t i k' E ST L), AN. reflexivity.
  - rewrite deinit_live.
    pose proof (loop_unsub (hm t l i) i (seq 0 (nel t)) s (nodup_ks _)) as F.
    assert (P1 : forall k, In k (seq 0 (nel t)) -> good s (hm t l i) i k).
    { intros k I. pose proof (GD k I (wd s)) as G. rewrite RW in G. specialize (G eq_refl).
      destruct s; cbn in *. subst. exact G. }
    specialize (F P1). rewrite RW in F.
    assert (P2 : forall k, 0 < held (sw a) i k -> act (sw a) i k = true).
    { intros k. apply (v_prox a V l t i k E ST). }
    specialize (F P2). fold (any_held (sw a) t i) in F. destruct (any_held (sw a) t i) eqn:AH.
    + rewrite F. reflexivity.
    + destruct F as (s' & F & (S1 & S2 & S3 & S4) & W & C & T & H & EL).
      rewrite F. cbn [bind]. eexists. split; [reflexivity|].
      cbn [set_stopc objs nxt wd cells trk hnd els prepc stopc].
      split; [rewrite S1, EO; reflexivity|].
      split; [intros l' N; rewrite S1; reflexivity|].
      split; [exact S4|]. split; [rewrite W; unfold stopped, off_all; rewrite ST; reflexivity|].
      split; [exact C|]. split; [exact T|].
      split; [intros i' k N; rewrite H; destruct (Nat.eqb_spec i' i); [contradiction|reflexivity]|].
      split. { intros k. rewrite H, Nat.eqb_refl, mem_seq. destruct (Nat.ltb_spec k (nel t)); cbn [andb].
               - destruct (act (sw a) i k); auto.
               - auto. }
      split; [exact EL|].
      rewrite fupd_eq. split; [rewrite andb_false_r; reflexivity|].
      intros j N. rewrite fupd_neq by exact N. rewrite S2, S3. auto.
Qed.

Lemma close_moved traced s w l t o : body traced s w l t None o -> close s l o = Ok s.
Proof. intros (-> & _). reflexivity. Qed.

(** no home of another object is among those of [l] *)
Lemma sep a l t i l' t' i' : Inv a -> var a l = Some (t, Some i) -> var a l' = Some (t', Some i') -> l' <> l ->
  i' <> i /\ hm t' l' i' <> hm t l i.
Proof.
  intros V E E' N.
  assert (i' <> i). { intros ->. apply N. symmetry. eapply (v_uniq a V); eassumption. }
  split; [assumption|]. apply hm_neq; congruence.
Qed.

Lemma hnd_small traced s a l t i k : Inv a -> R traced s a -> var a l = Some (t, Some i) -> nel t <= k -> hnd s i k = None.
Proof.
  intros V (_ & _ & RH & _) E L. apply RH. destruct (shnd a i k) eqn:X; [|reflexivity].
  pose proof (hnd_ok a l t i k V E X). lia.
Qed.

Lemma sim_destroy traced s a l t v :
  Inv a -> R traced s a -> var a l = Some (t, v) -> may_end a t v ->
  match s_step a (Destroy l) with
  | Ok a' => exists s', step traced s (Destroy l) = Ok s' /\ R traced s' a'
  | Term => step traced s (Destroy l) = Term
  | UB => False
  end.
Proof.
  intros V RR E ME. pose proof RR as (RW & RN & RH & RO). cbn [s_step step]. rewrite E.
  pose proof (RO l) as Rl. rewrite E in Rl. destruct Rl as (o & EO & B).
  unfold destroy. rewrite EO. destruct v as [i|]; cbn [s_end_opt].
  - pose proof (close_sim traced s a l t i o V RR E ME EO B) as CS. unfold s_end.
    destruct (any_held (sw a) t i) eqn:AH.
    + cbn [bind]. rewrite andb_true_r in CS. destruct (skel t) eqn:ST; cbn [negb] in CS; [|rewrite CS; reflexivity].
      destruct CS as (s1 & C1 & O1 & O1' & N1 & W1 & C & T & H1 & H2 & EL & P1 & P2).
      rewrite C1. cbn [bind]. rewrite O1. unfold live_obj, drop_map. cbn [o_ty o_home o_bind].
      assert (HE : forall ks, incl ks (seq 0 (nel t)) ->
                 forall k, In k ks -> els s1 (hm t l i) k = Some (full i k ((fun _ => false) k))).
      { intros ks I k Ik. rewrite EL, heqb_refl. apply I in Ik. apply mem_In in Ik. rewrite Ik. reflexivity. }
      unfold any_held in AH. unfold hm in HE. destruct (gen t) eqn:GT.
      * pose proof (loop_destroy (OnHeap i) i (fun _ => false) _ s1 (nodup_ks (nel t)) (HE _ (incl_refl _))) as F.
        rewrite W1, stopped_held, AH in F. rewrite F. reflexivity.
      * assert (IR : incl (rev (seq 0 (nel t))) (seq 0 (nel t))) by (intros x; rewrite <- in_rev; auto).
        pose proof (loop_destroy (InObj l) i (fun _ => false) _ s1 (NoDup_rev (nodup_ks (nel t))) (HE _ IR)) as F.
        rewrite W1, stopped_held in F.
        assert (X : existsb (fun k => Nat.ltb 0 (held (sw a) i k)) (rev (seq 0 (nel t))) = true).
        { apply existsb_exists in AH. destruct AH as (x & I & P). apply existsb_exists. exists x. split; [rewrite <- in_rev; exact I|exact P]. }
        rewrite X in F. rewrite F. reflexivity.
    + cbn [bind]. rewrite andb_false_r in CS.
      destruct CS as (s1 & C1 & O1 & O1' & N1 & W1 & C & T & H1 & H2 & EL & P1 & P2).
      rewrite C1. cbn [bind]. rewrite O1. unfold live_obj, drop_map. cbn [o_ty o_home o_bind].
      assert (HE : forall ks, incl ks (seq 0 (nel t)) ->
                 forall k, In k ks -> els s1 (hm t l i) k = Some (full i k ((fun _ => false) k))).
      { intros ks I k Ik. rewrite EL, heqb_refl. apply I in Ik. apply mem_In in Ik. rewrite Ik. reflexivity. }
      assert (FF : exists s2, (if gen t then
                 match (if gen t then Some i else None) with
                 | Some i0 => foldM (destroy_el (OnHeap i0)) s1 (seq 0 (nel t))
                 | None => Ok s1
                 end
               else foldM (destroy_el (InObj l)) s1 (rev (seq 0 (nel t)))) = Ok s2 /\ same s1 s2 /\ wd s2 = wd s1 /\
          (forall i' k', cells s2 i' k' = if Nat.eqb i' i && mem k' (seq 0 (nel t)) then None else cells s1 i' k') /\
          (forall i' k', trk s2 i' k' = if Nat.eqb i' i && mem k' (seq 0 (nel t)) then false else trk s1 i' k') /\
          (forall i' k', hnd s2 i' k' = if Nat.eqb i' i && mem k' (seq 0 (nel t)) then None else hnd s1 i' k') /\
          (forall h' k', els s2 h' k' = if heqb h' (hm t l i) && mem k' (seq 0 (nel t)) then None else els s1 h' k')).
      { unfold any_held in AH. unfold hm in HE |- *. destruct (gen t) eqn:GT.
        * pose proof (loop_destroy (OnHeap i) i (fun _ => false) _ s1 (nodup_ks (nel t)) (HE _ (incl_refl _))) as F.
          rewrite W1, stopped_held, AH in F. rewrite W1. exact F.
        * assert (IR : incl (rev (seq 0 (nel t))) (seq 0 (nel t))) by (intros x; rewrite <- in_rev; auto).
          pose proof (loop_destroy (InObj l) i (fun _ => false) _ s1 (NoDup_rev (nodup_ks (nel t))) (HE _ IR)) as F.
          rewrite W1, stopped_held in F.
          assert (X : existsb (fun k => Nat.ltb 0 (held (sw a) i k)) (rev (seq 0 (nel t))) = false).
          { destruct (existsb _ (rev _)) eqn:X; [|reflexivity]. apply existsb_exists in X. destruct X as (x & I & P).
            rewrite <- in_rev in I. assert (existsb (fun k => Nat.ltb 0 (held (sw a) i k)) (seq 0 (nel t)) = true) by (apply existsb_exists; eauto). congruence. }
          rewrite X in F. destruct F as (s2 & F & SM & WW & A1 & A2 & A3 & A4). exists s2.
          rewrite W1. split; [exact F|]. split; [exact SM|]. split; [exact WW|].
          repeat split; intros x k'; [rewrite A1|rewrite A2|rewrite A3|rewrite A4]; rewrite mem_rev; reflexivity. }
      destruct FF as (s2 & F & (S1 & S2 & S3 & S4) & WW & A1 & A2 & A3 & A4). rewrite F. cbn [bind].
      unfold drop_binding. rewrite S2, S3, P1. cbn [bind]. eexists. split; [reflexivity|].
      unfold R. cbn [with_var set_obj wd nxt hnd objs var sw shnd snxt].
      split; [rewrite WW; exact W1|]. split; [rewrite S4, N1; exact RN|]. split.
      * intros i' k'. rewrite A3, mem_seq. destruct (Nat.eqb_spec i' i) as [->|N]; cbn [andb].
        -- destruct (Nat.ltb_spec k' (nel t)); [tauto|]. rewrite <- RH.
           destruct (H2 k') as [->|(_ & G)]; [reflexivity|lia].
        -- rewrite H1 by exact N. apply RH.
      * intros l'. unfold fupd. destruct (Nat.eqb_spec l' l) as [->|N]; [reflexivity|].
        rewrite S1, O1' by exact N. specialize (RO l'). destruct (var a l') as [(t', v')|] eqn:E'; [|exact RO].
        destruct RO as (o' & EO' & B'). exists o'. split; [exact EO'|].
        eapply body_frame; [exact B'|]. destruct v' as [i'|].
        -- destruct (sep a l t i l' t' i' V E E' N) as (Ni & Nh).
           cbn [set_obj cells trk els prepc stopc hnd].
           split; [|split; [|split; [|split]]].
           ++ intros k' L'. rewrite A1, A2, A4, EL, C, T. destruct (Nat.eqb_spec i' i); [contradiction|].
              destruct (heqb_spec (hm t' l' i') (hm t l i)); [contradiction|]. cbn [andb].
              rewrite stopped_act_other by exact Ni. auto.
           ++ apply stopped_ann_other. exact Ni.
           ++ rewrite S2. apply P2. exact Ni.
           ++ rewrite S3. apply P2. exact Ni.
           ++ intros k'. rewrite A3. destruct (Nat.eqb_spec i' i); [contradiction|]. cbn [andb]. apply H1. exact Ni.
        -- intros G k' L'. cbn [set_obj els]. rewrite A4, EL.
           assert (InObj l' <> hm t l i) by (apply inobj_neq; congruence).
           destruct (heqb_spec (InObj l') (hm t l i)); [contradiction|]. reflexivity.
  - rewrite (close_moved _ _ _ _ _ _ B). cbn [bind]. rewrite EO. destruct B as (-> & BM). cbn [o_ty o_home o_bind drop_map].
    destruct (gen t) eqn:GT.
    + cbn [bind drop_binding]. eexists. split; [reflexivity|].
      unfold R. cbn [with_var set_obj wd nxt hnd objs var sw shnd snxt].
      split; [exact RW|]. split; [exact RN|]. split; [exact RH|].
      intros l'. unfold fupd. destruct (Nat.eqb_spec l' l) as [->|N]; [reflexivity|].
      specialize (RO l'). destruct (var a l') as [(t', v')|] eqn:E'; [|exact RO].
      destruct RO as (o' & EO' & B'). exists o'. split; [exact EO'|]. eapply body_frame; [exact B'|].
      destruct v'; cbn; auto.
    + destruct (loop_destroy_moved (InObj l) (rev (seq 0 (nel t))) s (NoDup_rev (nodup_ks (nel t)))) as
        (s2 & F & (S1 & S2 & S3 & S4) & WW & A1 & A2 & A3 & A4).
      { intros k I. rewrite <- in_rev in I. apply in_seq in I. apply BM; [reflexivity|lia]. }
      rewrite F. cbn [bind drop_binding]. eexists. split; [reflexivity|].
      unfold R. cbn [with_var set_obj wd nxt hnd objs var sw shnd snxt].
      split; [rewrite WW; exact RW|]. split; [rewrite S4; exact RN|].
      split; [intros; rewrite A3; apply RH|].
      intros l'. unfold fupd. destruct (Nat.eqb_spec l' l) as [->|N]; [reflexivity|]. rewrite S1.
      specialize (RO l'). destruct (var a l') as [(t', v')|] eqn:E'; [|exact RO].
      destruct RO as (o' & EO' & B'). exists o'. split; [exact EO'|]. eapply body_frame; [exact B'|].
      destruct v' as [i'|]; cbn [set_obj cells trk els prepc stopc hnd].
      * rewrite S2, S3. split; [|auto]. { intros k' L'. rewrite A1, A2, A4.
          assert (hm t' l' i' <> InObj l) by (unfold hm; destruct (gen t'); congruence).
          destruct (heqb_spec (hm t' l' i') (InObj l)); [contradiction|]. auto. }
        split; [reflexivity|]. split; [reflexivity|]. split; [reflexivity|]. intros; rewrite A3; reflexivity.
      * intros G k' L'. rewrite A4. destruct (heqb_spec (InObj l') (InObj l)); [congruence|]. reflexivity.
Qed.

(** after the first part of a move assignment to [d] *)
Definition mid (traced : bool) (a : sst) (d : nat) (t : ty) (v : option nat) (w1 : world) (s1 : cst) : Prop :=
  (exists o1, objs s1 d = Some o1 /\ o_ty o1 = t /\ o_bind o1 = v /\ o_home o1 = (if gen t then v else None)) /\
  (forall l', l' <> d -> match var a l' with
     | None => objs s1 l' = None
     | Some (t', v') => exists o', objs s1 l' = Some o' /\ body traced s1 w1 l' t' v' o'
     end) /\
  nxt s1 = snxt a /\ wd s1 = w1 /\
  (forall k, k < nel t -> gen t = false -> els s1 (InObj d) k = Some (elof v k false)) /\
  (forall j k, v = Some j -> k < nel t -> gen t = true -> els s1 (OnHeap j) k = Some (full j k false)) /\
  drop_binding s1 v = Ok s1 /\
  (forall i' k, v <> Some i' -> ((hnd s1 i' k = None) <-> (shnd a i' k = false))) /\
  (forall j k, v = Some j -> nel t <= k -> hnd s1 j k = None).

Lemma phase1 traced s a d t v o :
  Inv a -> R traced s a -> var a d = Some (t, v) -> may_end a t v ->
  objs s d = Some o ->
  if match v with None => false | Some j => negb (skel t) && any_held (sw a) t j end
  then close s d o = Term
  else exists s1, close s d o = Ok s1 /\
    mid traced a d t v (match v with None => sw a | Some j => stopped (sw a) t j end) s1.
Proof.
  intros V RR E ME EO. pose proof RR as (RW & RN & RH & RO).
  pose proof (RO d) as Rd. rewrite E in Rd. destruct Rd as (o0 & EO0 & B).
  rewrite EO in EO0. injection EO0 as <-.
  destruct v as [j|].
  - pose proof (close_sim traced s a d t j o V RR E ME EO B) as CS.
    destruct (negb (skel t) && any_held (sw a) t j) eqn:X; [exact CS|].
    destruct CS as (s1 & C1 & O1 & O1' & N1 & W1 & C & T & H1 & H2 & EL & P1 & P2).
    exists s1. split; [exact C1|]. split.
    { exists (live_obj t j false). split; [exact O1|]. unfold live_obj; cbn. auto. }
    split.
    { intros l' N. rewrite O1' by exact N. specialize (RO l'). destruct (var a l') as [(t', v')|] eqn:E'; [|exact RO].
      destruct RO as (o' & EO' & B'). exists o'. split; [exact EO'|].
      eapply body_frame; [exact B'|]. destruct v' as [i'|].
      - destruct (sep a d t j l' t' i' V E E' N) as (Ni & Nh).
        split; [|split; [|split; [|split]]].
        + intros k' L'. rewrite EL, C, T. destruct (heqb_spec (hm t' l' i') (hm t d j)); [contradiction|].
          cbn [andb]. rewrite stopped_act_other by exact Ni. auto.
        + apply stopped_ann_other. exact Ni.
        + apply P2. exact Ni.
        + apply P2. exact Ni.
        + intros k'. apply H1. exact Ni.
      - intros G k' L'. rewrite EL.
        assert (InObj l' <> hm t d j) by (apply inobj_neq; congruence).
        destruct (heqb_spec (InObj l') (hm t d j)); [contradiction|]. reflexivity. }
    split; [rewrite N1; exact RN|]. split; [exact W1|].
    split.
    { intros k L G. rewrite EL. unfold hm. rewrite G, heqb_refl, mem_seq. apply Nat.ltb_lt in L. rewrite L. reflexivity. }
    split.
    { intros j' k [= <-] L G. rewrite EL. unfold hm. rewrite G, heqb_refl, mem_seq. apply Nat.ltb_lt in L. rewrite L. reflexivity. }
    split; [unfold drop_binding; rewrite P1; reflexivity|].
    split.
    { intros i' k N. rewrite H1 by congruence. apply RH. }
    intros j' k [= <-] L. destruct (H2 k) as [->|(Z & _)]; [|exact Z]. eapply hnd_small; eassumption.
  - exists s. split; [eapply close_moved; exact B|]. split.
    { exists o. split; [exact EO|]. destruct B as (-> & _). cbn. destruct (gen t); auto. }
    split; [intros l' _; apply RO|]. split; [exact RN|]. split; [exact RW|].
    split. { intros k L G. destruct B as (_ & B). apply B; assumption. }
    split; [discriminate|]. split; [reflexivity|]. split; [intros; apply RH|discriminate].
Qed.

Definition end_hnd (a : sst) (t : ty) (v : option nat) : nat -> nat -> bool :=
  match v with
  | None => shnd a
  | Some j => fun i' k' => if Nat.eqb i' j && Nat.ltb k' (nel t) then false else shnd a i' k'
  end.

Lemma ty_eqb_refl t : ty_eqb t t = true.
Proof. unfold ty_eqb. rewrite !Bool.eqb_reflx, Nat.eqb_refl. reflexivity. Qed.

Lemma phase2 traced a d r t v v' w1 s1 o1 o' :
  Inv a -> d <> r -> var a d = Some (t, v) -> var a r = Some (t, v') -> may_move traced a t v' ->
  mid traced a d t v w1 s1 -> objs s1 d = Some o1 -> objs s1 r = Some o' ->
  held w1 = held (sw a) ->
  (skel t = false -> forall j k, v = Some j -> held (sw a) j k = 0) ->
  if match v with None => false | Some j => any_held (sw a) t j end
  then (do s3 <- (if gen (o_ty o1) then drop_map s1 o1
                    else foldM (assign_el (skel (o_ty o1)) (InObj d) (InObj r)) s1 (seq 0 (nel (o_ty o1)))) ;
          Ok (set_obj (set_obj s3 r (Some (emptied o'))) d (Some o'))) = Term
  else exists s', (do s3 <- (if gen (o_ty o1) then drop_map s1 o1
                    else foldM (assign_el (skel (o_ty o1)) (InObj d) (InObj r)) s1 (seq 0 (nel (o_ty o1)))) ;
          Ok (set_obj (set_obj s3 r (Some (emptied o'))) d (Some o'))) = Ok s' /\
       o_ty o' = t /\
       R traced s' (with_var (with_var (mkS (var a) w1 (end_hnd a t v) (snxt a)) r (Some (t, None))) d (Some (t, v'))).
Proof.
  intros V N Ed Er (MM1 & MM2) (Md & Mo & Mn & Mw & Me1 & Me2 & _ & Mh1 & Mh2) EO1 EO' HW HZ.
  destruct Md as (ox & X & T1 & B1 & H1). rewrite EO1 in X. injection X as <-.
  assert (Br := Mo r (fun q => N (eq_sym q))). rewrite Er in Br. destruct Br as (ox & X & Br). rewrite EO' in X. injection X as <-.
  assert (T' : o_ty o' = t) by (destruct v'; destruct Br as (-> & _); reflexivity).
  rewrite T1. unfold drop_map. rewrite H1, T1. destruct (gen t) eqn:GT.
  - (* generic: only the old map is destroyed *)
    assert (FF : if match v with None => false | Some j => any_held (sw a) t j end
      then match v with Some i => foldM (destroy_el (OnHeap i)) s1 (seq 0 (nel t)) | None => Ok s1 end = Term
      else exists s3, match v with Some i => foldM (destroy_el (OnHeap i)) s1 (seq 0 (nel t)) | None => Ok s1 end = Ok s3 /\
        same s1 s3 /\ wd s3 = w1 /\
        (forall i' k', v <> Some i' -> cells s3 i' k' = cells s1 i' k' /\ trk s3 i' k' = trk s1 i' k' /\ hnd s3 i' k' = hnd s1 i' k') /\
        (forall j k', v = Some j -> k' < nel t -> hnd s3 j k' = None) /\
        (forall j k', v = Some j -> nel t <= k' -> hnd s3 j k' = hnd s1 j k') /\
        (forall h' k', (forall j, v = Some j -> h' <> OnHeap j) -> els s3 h' k' = els s1 h' k')).
    { destruct v as [j|].
      - pose proof (loop_destroy (OnHeap j) j (fun _ => false) (seq 0 (nel t)) s1 (nodup_ks _)) as F.
        assert (P : forall k, In k (seq 0 (nel t)) -> els s1 (OnHeap j) k = Some (full j k false)).
        { intros k I. apply in_seq in I. apply Me2; auto; lia. }
        specialize (F P). rewrite Mw, HW in F. fold (any_held (sw a) t j) in F.
        destruct (any_held (sw a) t j); [exact F|].
        destruct F as (s3 & F & SM & W & A1 & A2 & A3 & A4). exists s3.
        split; [exact F|]. split; [exact SM|]. split; [exact W|].
        split. { intros i' k' Ni. rewrite A1, A2, A3. destruct (Nat.eqb_spec i' j); [congruence|]. auto. }
        split. { intros j' k' [= <-] L. rewrite A3, Nat.eqb_refl, mem_seq. apply Nat.ltb_lt in L. rewrite L. reflexivity. }
        split. { intros j' k' [= <-] L. rewrite A3, Nat.eqb_refl, mem_seq. apply Nat.ltb_ge in L. rewrite L. reflexivity. }
        intros h' k' Nh. rewrite A4. destruct (heqb_spec h' (OnHeap j)) as [->|]; [|reflexivity].
        exfalso. apply (Nh j); reflexivity.
      - exists s1. split; [reflexivity|]. split; [apply same_refl|]. split; [exact Mw|].
        split; [auto|]. split; [discriminate|]. split; [discriminate|]. auto. }
    destruct (match v with None => false | Some j => any_held (sw a) t j end); [rewrite FF; reflexivity|].
    destruct FF as (s3 & F & (S1 & S2 & S3 & S4) & W3 & A1 & A2 & A2' & A4). rewrite F. cbn [bind].
    eexists. split; [reflexivity|]. split; [exact T'|].
    unfold R. cbn [with_var set_obj wd nxt hnd objs var sw shnd snxt].
    split; [exact W3|]. split; [rewrite S4; exact Mn|]. split.
    { intros i' k'. unfold end_hnd. destruct v as [j|].
      - destruct (Nat.eqb_spec i' j) as [->|Nj]; cbn [andb].
        + destruct (Nat.ltb_spec k' (nel t)) as [L|L].
          * rewrite (A2 j k' eq_refl L). tauto.
          * rewrite (A2' j k' eq_refl L), (Mh2 j k' eq_refl L). split; [|auto]. intros _.
            destruct (shnd a j k') eqn:Z; [|reflexivity]. pose proof (hnd_ok a d t j k' V Ed Z). lia.
        + destruct (A1 i' k' ltac:(congruence)) as (_ & _ & ->). apply Mh1. congruence.
      - destruct (A1 i' k' ltac:(congruence)) as (_ & _ & ->). apply Mh1. congruence. }
    assert (FR : forall l' l0 t' v0 o0, var a l' = Some (t', v0) -> l' <> d ->
              (gen t' = true \/ l0 = l') -> body traced s1 w1 l' t' v0 o0 ->
              body traced (set_obj (set_obj s3 r (Some (emptied o'))) d (Some o')) w1 l0 t' v0 o0).
    { intros l' l0 t' v0 o0 E0 N0 GL B0.
      assert (HM : forall i, hm t' l0 i = hm t' l' i).
      { intros i. unfold hm. destruct GL as [->| ->]; [reflexivity|reflexivity]. }
      assert (B0' : body traced s1 w1 l0 t' v0 o0).
      { destruct v0 as [i0|]; [cbn [body] in *; rewrite (HM i0); exact B0|].
        destruct B0 as (Q1 & Q2). split; [exact Q1|]. intros G. destruct GL as [G'| ->]; [congruence|]. apply Q2. exact G. }
      eapply body_frame; [exact B0'|]. destruct v0 as [i0|]; cbn [set_obj cells trk els prepc stopc hnd].
      - assert (Nv : v <> Some i0).
        { intros ->. apply N0. eapply (v_uniq a V); eassumption. }
        split; [|split; [reflexivity|]; split; [apply S2|]; split; [apply S3|]; intros k'; apply A1; exact Nv].
        intros k' L'. destruct (A1 i0 k' Nv) as (-> & -> & _). split; [reflexivity|]. split; [reflexivity|]. split; [|reflexivity].
        apply A4. intros j Ej. unfold hm. destruct (gen t'); congruence.
      - intros G k' L'. apply A4. intros; discriminate. }
    intros l'. unfold fupd. destruct (Nat.eqb_spec l' d) as [->|Nd].
    { exists o'. split; [reflexivity|]. apply (FR r d t v' o' Er); [congruence|left; exact GT|exact Br]. }
    destruct (Nat.eqb_spec l' r) as [->|Nr].
    { eexists. split; [reflexivity|]. cbn [body]. unfold emptied. rewrite T'. split; [reflexivity|congruence]. }
    rewrite S1. specialize (Mo l' Nd). destruct (var a l') as [(t', v0)|] eqn:E'; [|exact Mo].
    destruct Mo as (o0 & EO0 & B0). exists o0. split; [exact EO0|]. apply (FR l' l' t' v0 o0); auto.
  - (* generated class: element by element *)
    destruct v' as [i|]; [|exfalso; apply (MM1 eq_refl); reflexivity].
    destruct Br as (-> & BE & BP & BH). unfold hm in BE, BH. rewrite GT in BE, BH.
    assert (NV : v <> Some i). { intros ->. apply N. eapply (v_uniq a V); eassumption. }
    pose proof (loop_assign (skel t) (InObj d) (InObj r) v i (fun _ => false) (fun k => act w1 i k) (seq 0 (nel t))
      ltac:(congruence) NV s1 (nodup_ks _)) as F.
    assert (P1 : forall k, In k (seq 0 (nel t)) -> els s1 (InObj r) k = Some (full i k (act w1 i k))).
    { intros k I. apply in_seq in I. destruct (BE k ltac:(lia)) as (_ & Q & _). exact Q. }
    assert (P2 : forall k, In k (seq 0 (nel t)) -> els s1 (InObj d) k = Some (elof v k false)).
    { intros k I. apply in_seq in I. apply Me1; auto; lia. }
    specialize (F P1 P2). rewrite Mw, HW in F. specialize (F HZ).
    destruct v as [j|].
    + fold (any_held (sw a) t j) in F. destruct (any_held (sw a) t j) eqn:AH; [rewrite F; reflexivity|].
      destruct F as (s3 & F & (S1 & S2 & S3 & S4) & W3 & A1 & A2 & A3 & A4). rewrite F. cbn [bind].
      eexists. split; [reflexivity|]. split; [reflexivity|].
      unfold R. cbn [with_var set_obj wd nxt hnd objs var sw shnd snxt].
      split; [rewrite W3; reflexivity|]. split; [rewrite S4; exact Mn|]. split.
      { intros i' k'. unfold end_hnd. rewrite A3, mem_seq. destruct (Nat.eqb_spec i' j) as [->|Nj]; cbn [andb].
        - destruct (Nat.ltb_spec k' (nel t)) as [L|L]; [tauto|].
          rewrite (Mh2 j k' eq_refl L). split; [|auto]. intros _.
          destruct (shnd a j k') eqn:Z; [|reflexivity]. pose proof (hnd_ok a d t j k' V Ed Z). lia.
        - apply Mh1. congruence. }
      intros l'. unfold fupd. destruct (Nat.eqb_spec l' d) as [->|Nd].
      { eexists. split; [reflexivity|]. cbn [body set_obj cells els trk prepc stopc hnd]. unfold hm. rewrite GT.
        split; [reflexivity|]. split; [|split].
        - intros k L. rewrite A1, A2, A4, heqb_refl, Nat.eqb_refl, mem_seq. pose proof L as L0. apply Nat.ltb_lt in L. rewrite L. cbn [andb].
          split; [reflexivity|]. split; [reflexivity|]. destruct (Nat.eqb_spec i j); [congruence|]. apply BE. exact L0.
        - rewrite S2, S3. exact BP.
        - intros k h jj TR Hh. exfalso. rewrite A3 in Hh. destruct (Nat.eqb_spec i j); [congruence|]. cbn [andb] in Hh.
          assert (Z : hnd s1 i k = None).
          { apply Mh1; [congruence|]. destruct (skel t) eqn:ST; [|apply (MM2 TR eq_refl eq_refl); reflexivity].
            destruct (shnd a i k) eqn:Z; [|reflexivity]. pose proof (hnd_ok a r t i k V Er Z). intuition congruence. }
          congruence. }
      destruct (Nat.eqb_spec l' r) as [->|Nr].
      { eexists. split; [reflexivity|]. cbn [body set_obj els]. unfold emptied, live_obj. cbn [o_ty]. split; [reflexivity|].
        intros _ k L. rewrite A4, heqb_refl, mem_seq. apply Nat.ltb_lt in L. rewrite L.
        destruct (heqb_spec (InObj r) (InObj d)); [congruence|]. reflexivity. }
      rewrite S1. specialize (Mo l' Nd). destruct (var a l') as [(t', v0)|] eqn:E'; [|exact Mo].
      destruct Mo as (o0 & EO0 & B0). exists o0. split; [exact EO0|]. eapply body_frame; [exact B0|].
      destruct v0 as [i0|]; cbn [set_obj cells trk els prepc stopc hnd].
      * assert (i0 <> i). { intros ->. apply Nr. eapply (v_uniq a V); eassumption. }
        assert (i0 <> j). { intros ->. apply Nd. eapply (v_uniq a V); eassumption. }
        split; [|split; [reflexivity|]; split; [apply S2|]; split; [apply S3|]].
        { intros k' L'. rewrite A1, A2, A4. destruct (Nat.eqb_spec i0 i); [contradiction|]. destruct (Nat.eqb_spec i0 j); [contradiction|].
          cbn [andb]. assert (hm t' l' i0 <> InObj d) by (unfold hm; destruct (gen t'); congruence).
          assert (hm t' l' i0 <> InObj r) by (unfold hm; destruct (gen t'); congruence).
          destruct (heqb_spec (hm t' l' i0) (InObj d)); [contradiction|]. destruct (heqb_spec (hm t' l' i0) (InObj r)); [contradiction|]. auto. }
        intros k'. rewrite A3. destruct (Nat.eqb_spec i0 j); [contradiction|]. reflexivity.
      * intros G k' L'. rewrite A4. destruct (heqb_spec (InObj l') (InObj d)); [congruence|]. destruct (heqb_spec (InObj l') (InObj r)); [congruence|]. reflexivity.
    + destruct F as (s3 & F & (S1 & S2 & S3 & S4) & W3 & A1 & A2 & A3 & A4). rewrite F. cbn [bind].
      cbn [andb] in A1, A2, A3.
      eexists. split; [reflexivity|]. split; [reflexivity|].
      unfold R. cbn [with_var set_obj wd nxt hnd objs var sw shnd snxt].
      split; [rewrite W3; reflexivity|]. split; [rewrite S4; exact Mn|]. split.
      { intros i' k'. unfold end_hnd. rewrite A3. apply Mh1. congruence. }
      intros l'. unfold fupd. destruct (Nat.eqb_spec l' d) as [->|Nd].
      { eexists. split; [reflexivity|]. cbn [body set_obj cells els trk prepc stopc hnd]. unfold hm. rewrite GT.
        split; [reflexivity|]. split; [|split].
        - intros k L. rewrite A1, A2, A4, heqb_refl, Nat.eqb_refl, mem_seq. pose proof L as L0. apply Nat.ltb_lt in L. rewrite L. cbn [andb].
          split; [reflexivity|]. split; [reflexivity|]. apply BE. exact L0.
        - rewrite S2, S3. exact BP.
        - intros k h jj TR Hh. exfalso. rewrite A3 in Hh.
          assert (Z : hnd s1 i k = None).
          { apply Mh1; [congruence|]. destruct (skel t) eqn:ST; [|apply (MM2 TR eq_refl eq_refl); reflexivity].
            destruct (shnd a i k) eqn:Z; [|reflexivity]. pose proof (hnd_ok a r t i k V Er Z). intuition congruence. }
          congruence. }
      destruct (Nat.eqb_spec l' r) as [->|Nr].
      { eexists. split; [reflexivity|]. cbn [body set_obj els]. unfold emptied, live_obj. cbn [o_ty]. split; [reflexivity|].
        intros _ k L. rewrite A4, heqb_refl, mem_seq. apply Nat.ltb_lt in L. rewrite L.
        destruct (heqb_spec (InObj r) (InObj d)); [congruence|]. reflexivity. }
      rewrite S1. specialize (Mo l' Nd). destruct (var a l') as [(t', v0)|] eqn:E'; [|exact Mo].
      destruct Mo as (o0 & EO0 & B0). exists o0. split; [exact EO0|]. eapply body_frame; [exact B0|].
      destruct v0 as [i0|]; cbn [set_obj cells trk els prepc stopc hnd].
      * assert (i0 <> i). { intros ->. apply Nr. eapply (v_uniq a V); eassumption. }
        split; [|split; [reflexivity|]; split; [apply S2|]; split; [apply S3|]].
        { intros k' L'. rewrite A1, A2, A4. destruct (Nat.eqb_spec i0 i); [contradiction|].
          cbn [andb]. assert (hm t' l' i0 <> InObj d) by (unfold hm; destruct (gen t'); congruence).
          assert (hm t' l' i0 <> InObj r) by (unfold hm; destruct (gen t'); congruence).
          destruct (heqb_spec (hm t' l' i0) (InObj d)); [contradiction|]. destruct (heqb_spec (hm t' l' i0) (InObj r)); [contradiction|]. auto. }
        intros k'. rewrite A3. reflexivity.
      * intros G k' L'. rewrite A4. destruct (heqb_spec (InObj l') (InObj d)); [congruence|]. destruct (heqb_spec (InObj l') (InObj r)); [congruence|]. reflexivity.
Qed.

Lemma sim_assign traced s a d r :
  Inv a -> R traced s a -> legal traced a (MoveAssign d r) ->
  match s_step a (MoveAssign d r) with
  | Ok a' => exists s', step traced s (MoveAssign d r) = Ok s' /\ R traced s' a'
  | Term => step traced s (MoveAssign d r) = Term
  | UB => False
  end.
Proof.
  intros V RR (t & v & v' & Ed & Er & Lself & Lne). pose proof RR as (RW & RN & RH & RO).
  cbn [s_step step]. rewrite Ed, Er. unfold move_assign.
  pose proof (RO d) as Rd. rewrite Ed in Rd. destruct Rd as (o & EO & B).
  pose proof (RO r) as Rr. rewrite Er in Rr. destruct Rr as (o' & EO' & B').
  rewrite EO, EO'.
  assert (To : o_ty o = t) by (destruct v; destruct B as (-> & _); reflexivity).
  destruct (Nat.eqb_spec d r) as [->|N].
  - rewrite To, (Lself eq_refl). exists s. split; [reflexivity|exact RR].
  - destruct (Lne N) as (MM & ME). clear Lself Lne.
    pose proof (phase1 traced s a d t v o V RR Ed ME EO) as P1.
    unfold s_end_opt, s_end.
    assert (KK : match v with None => false | Some j => negb (skel t) && any_held (sw a) t j end = true ->
                 exists j, v = Some j /\ any_held (sw a) t j = true).
    { destruct v as [j|]; [|discriminate]. intros X. apply andb_true_iff in X. destruct X. eauto. }
    destruct (match v with None => false | Some j => negb (skel t) && any_held (sw a) t j end) eqn:X1.
    + destruct (KK eq_refl) as (j & -> & AH). rewrite AH. cbn [bind]. rewrite P1. reflexivity.
    + destruct P1 as (s1 & C1 & M). rewrite C1. cbn [bind].
      pose proof M as (Md & Mo & _ & Mw & _ & _ & Mdrop & _).
      destruct Md as (o1 & EO1 & T1 & B1 & H1). rewrite EO1.
      pose proof (Mo r (fun q => N (eq_sym q))) as Q. rewrite Er in Q. destruct Q as (o2 & EO2 & B2). rewrite EO2.
      assert (T2 : o_ty o2 = t) by (destruct v'; destruct B2 as (-> & _); reflexivity).
      pose proof (phase2 traced a d r t v v' _ s1 o1 o2 V N Ed Er MM M EO1 EO2) as P2.
      rewrite T2, B1, Mdrop. cbn [bind].
      assert (HW : held (match v with None => sw a | Some j => stopped (sw a) t j end) = held (sw a)).
      { destruct v; [apply stopped_held|reflexivity]. }
      specialize (P2 HW).
      assert (HZ : skel t = false -> forall j k, v = Some j -> held (sw a) j k = 0).
      { intros ST j k ->. rewrite ST in X1. cbn [negb andb] in X1.
        destruct (Nat.lt_ge_cases k (nel t)); [eapply any_held_false; eassumption|eapply big_held; eassumption]. }
      specialize (P2 HZ). rewrite T1 in P2 |- *. rewrite ty_eqb_refl.
      destruct v as [j|].
      * destruct (any_held (sw a) t j) eqn:AH; cbn [bind]; [exact P2|].
        destruct P2 as (s' & F & T' & RR'). exists s'. split; [exact F|].
        exact RR'.
      * cbn [bind]. destruct P2 as (s' & F & T' & RR'). exists s'. split; [exact F|]. destruct a; exact RR'.
Qed.

Lemma sim_ctor traced s a d r :
  Inv a -> R traced s a -> legal traced a (MoveCtor d r) ->
  match s_step a (MoveCtor d r) with
  | Ok a' => exists s', step traced s (MoveCtor d r) = Ok s' /\ R traced s' a'
  | Term => step traced s (MoveCtor d r) = Term
  | UB => False
  end.
Proof.
  intros V RR (Ed & t & v & Er & MM1 & MM2). pose proof RR as (RW & RN & RH & RO).
  cbn [s_step step]. rewrite Er. unfold move_ctor.
  assert (N : d <> r) by congruence.
  pose proof (RO r) as Rr. rewrite Er in Rr. destruct Rr as (o & EO & B). rewrite EO.
  assert (To : o_ty o = t) by (destruct v; destruct B as (-> & _); reflexivity).
  rewrite To. destruct (gen t) eqn:GT.
  - cbn [bind]. eexists. split; [reflexivity|].
    unfold R. cbn [with_var set_obj wd nxt hnd objs var sw shnd snxt].
    split; [exact RW|]. split; [exact RN|]. split; [exact RH|].
    intros l'. unfold fupd. destruct (Nat.eqb_spec l' d) as [->|Nd].
    { exists o. split; [reflexivity|]. assert (B' : body traced s (sw a) d t v o).
      { destruct v as [i|]; cbn [body] in *; unfold hm in *; rewrite GT in *; [exact B|]. destruct B; split; [assumption|congruence]. }
      eapply body_frame; [exact B'|]. destruct v; cbn; auto 10. }
    destruct (Nat.eqb_spec l' r) as [->|Nr].
    { eexists. split; [reflexivity|]. cbn [body]. unfold emptied. rewrite To. split; [reflexivity|congruence]. }
    specialize (RO l'). destruct (var a l') as [(t', v0)|] eqn:E'; [|exact RO].
    destruct RO as (o0 & EO0 & B0). exists o0. split; [exact EO0|]. eapply body_frame; [exact B0|]. destruct v0; cbn; auto 10.
  - destruct v as [i|]; [|exfalso; apply (MM1 eq_refl); reflexivity].
    destruct B as (-> & BE & BP & BH). unfold hm in BE, BH. rewrite GT in BE, BH.
    destruct (loop_ctor (InObj d) (InObj r) i (fun k => act (sw a) i k) (seq 0 (nel t)) ltac:(congruence) s (nodup_ks _)) as
      (s3 & F & (S1 & S2 & S3 & S4) & W3 & A2 & A3 & A1 & A4).
    { intros k I. apply in_seq in I. destruct (BE k ltac:(lia)) as (_ & Q & _). exact Q. }
    rewrite F. cbn [bind]. eexists. split; [reflexivity|].
    unfold R. cbn [with_var set_obj wd nxt hnd objs var sw shnd snxt].
    split; [rewrite W3; exact RW|]. split; [rewrite S4; exact RN|]. split; [intros; rewrite A3; apply RH|].
    intros l'. unfold fupd. destruct (Nat.eqb_spec l' d) as [->|Nd].
    { eexists. split; [reflexivity|]. cbn [body set_obj cells els trk prepc stopc hnd]. unfold hm. rewrite GT.
      split; [reflexivity|]. split; [|split].
      - intros k L. rewrite A1, A2, A4, heqb_refl, Nat.eqb_refl, mem_seq. pose proof L as L0. apply Nat.ltb_lt in L. rewrite L. cbn [andb].
        split; [reflexivity|]. split; [reflexivity|]. apply BE. exact L0.
      - rewrite S2, S3. exact BP.
      - intros k h jj TR Hh. exfalso. rewrite A3 in Hh.
        assert (Z : hnd s i k = None).
        { apply RH. destruct (skel t) eqn:ST; [|apply (MM2 TR eq_refl eq_refl); reflexivity].
          destruct (shnd a i k) eqn:Z; [|reflexivity]. pose proof (hnd_ok a r t i k V Er Z). intuition congruence. }
        congruence. }
    destruct (Nat.eqb_spec l' r) as [->|Nr].
    { eexists. split; [reflexivity|]. cbn [body set_obj els]. unfold emptied, live_obj. cbn [o_ty]. split; [reflexivity|].
      intros _ k L. rewrite A4, heqb_refl, mem_seq. apply Nat.ltb_lt in L. rewrite L.
      destruct (heqb_spec (InObj r) (InObj d)); [congruence|]. reflexivity. }
    rewrite S1. specialize (RO l'). destruct (var a l') as [(t', v0)|] eqn:E'; [|exact RO].
    destruct RO as (o0 & EO0 & B0). exists o0. split; [exact EO0|]. eapply body_frame; [exact B0|].
    destruct v0 as [i0|]; cbn [set_obj cells trk els prepc stopc hnd].
    + assert (i0 <> i). { intros ->. apply Nr. eapply (v_uniq a V); eassumption. }
      split; [|split; [reflexivity|]; split; [apply S2|]; split; [apply S3|]].
      { intros k' L'. rewrite A1, A2, A4. destruct (Nat.eqb_spec i0 i); [contradiction|].
        cbn [andb]. assert (hm t' l' i0 <> InObj d) by (unfold hm; destruct (gen t'); congruence).
        assert (hm t' l' i0 <> InObj r) by (unfold hm; destruct (gen t'); congruence).
        destruct (heqb_spec (hm t' l' i0) (InObj d)); [contradiction|]. destruct (heqb_spec (hm t' l' i0) (InObj r)); [contradiction|]. auto. }
      intros k'. rewrite A3. reflexivity.
    + intros G k' L'. rewrite A4. destruct (heqb_spec (InObj l') (InObj d)); [congruence|]. destruct (heqb_spec (InObj l') (InObj r)); [congruence|]. reflexivity.
Qed.

Lemma sim_create traced s a l t :
  Inv a -> R traced s a -> var a l = None ->
  exists s', step traced s (Create l t) = Ok s' /\
    R traced s' (mkS (fupd (var a) l (Some (t, Some (snxt a)))) (sw a) (shnd a) (S (snxt a))).
Proof.
  intros V (RW & RN & RH & RO) El. cbn [step]. unfold create. rewrite RN.
  destruct (loop_new (hm t l (snxt a)) (snxt a) (seq 0 (nel t)) s (nodup_ks _)) as
    (s3 & F & (S1 & S2 & S3 & S4) & W3 & A3 & A1 & A2 & A4).
  change (if gen t then OnHeap (snxt a) else InObj l) with (hm t l (snxt a)). rewrite F. cbn [bind].
  destruct (v_new a V (snxt a) (Nat.le_refl _)) as (VA & VB).
  eexists. split; [reflexivity|].
  unfold R. cbn [wd nxt hnd objs var sw shnd snxt].
  split; [rewrite W3; exact RW|]. split; [reflexivity|]. split; [intros; rewrite A3; apply RH|].
  intros l'. destruct (Nat.eq_dec l' l) as [->|N].
  - rewrite (fupd_eq (var a)), (fupd_eq (objs s3)). eexists. split; [reflexivity|]. cbn [body cells els trk prepc stopc hnd].
    split; [rewrite VA, andb_false_r; reflexivity|]. split; [|split].
    + intros k L. rewrite A1, A2, A4, heqb_refl, Nat.eqb_refl, mem_seq. apply Nat.ltb_lt in L. rewrite L. cbn [andb].
      destruct (VB k) as (-> & _). auto.
    + intros ST _. rewrite !fupd_eq, ST. reflexivity.
    + intros k h j _ Hh. rewrite A3 in Hh. destruct (VB k) as (_ & _ & Z). apply RH in Z. congruence.
  - rewrite (fupd_neq (var a) l l') by exact N. rewrite (fupd_neq (objs s3) l l') by exact N.
    rewrite S1. specialize (RO l'). destruct (var a l') as [(t', v0)|] eqn:E'; [|exact RO].
    destruct RO as (o0 & EO0 & B0). exists o0. split; [exact EO0|]. eapply body_frame; [exact B0|].
    destruct v0 as [i0|]; cbn [cells trk els prepc stopc hnd].
    + pose proof (v_lt a V _ _ _ E') as LT. rewrite !fupd_neq by lia.
      split; [|split; [reflexivity|]; split; [apply S2|]; split; [apply S3|]; intros; rewrite A3; reflexivity].
      intros k' L'. rewrite A1, A2, A4. destruct (Nat.eqb_spec i0 (snxt a)); [lia|]. cbn [andb].
      assert (hm t' l' i0 <> hm t l (snxt a)) by (apply hm_neq; lia).
      destruct (heqb_spec (hm t' l' i0) (hm t l (snxt a))); [contradiction|]. auto.
    + intros G k' L'. rewrite A4. assert (InObj l' <> hm t l (snxt a)) by (apply inobj_neq; congruence).
      destruct (heqb_spec (InObj l') (hm t l (snxt a))); [contradiction|]. reflexivity.
Qed.

Lemma R_say traced s a e : R traced s a -> R traced (set_w s (say (wd s) e)) (with_w a (say (sw a) e)).
Proof.
  intros (RW & RN & RH & RO). unfold R. cbn [set_w with_w wd nxt hnd objs var sw shnd snxt].
  rewrite RW. split; [reflexivity|]. split; [exact RN|]. split; [exact RH|]. intros l. specialize (RO l).
  destruct (var a l) as [(t, v)|]; [|exact RO]. destruct RO as (o & EO & B). exists o. split; [exact EO|].
  eapply body_frame; [exact B|]. destruct v; cbn; auto 10.
Qed.

Lemma R_my traced s a l t i k : R traced s a -> var a l = Some (t, Some i) -> k < nel t ->
  my_el s l k = Ok (live_obj t i (skel t && ann (sw a) i), hm t l i, full i k (act (sw a) i k)).
Proof.
  intros (RW & RN & RH & RO) E L. specialize (RO l). rewrite E in RO. destruct RO as (o & EO & (-> & BE & _)).
  unfold my_el. rewrite EO. unfold home_of, live_obj. cbn [o_ty o_home].
  destruct (BE k L) as (_ & EK & _). unfold hm in *. destruct (gen t); rewrite EK; reflexivity.
Qed.

Lemma R_my_moved traced s a l t k : R traced s a -> var a l = Some (t, None) -> gen t = false -> k < nel t ->
  my_el s l k = Ok (mkO t None [] false false None, InObj l, moved).
Proof.
  intros (RW & RN & RH & RO) E G L. specialize (RO l). rewrite E in RO. destruct RO as (o & EO & (-> & BE)).
  unfold my_el. rewrite EO. unfold home_of. cbn [o_ty]. rewrite G, (BE G k L). reflexivity.
Qed.

(** a change to element [k] of service [i] and to the world of that element *)
Lemma R_elem traced s a l t i k w' hs ah f :
  Inv a -> R traced s a -> var a l = Some (t, Some i) -> k < nel t ->
  ann w' = ann (sw a) ->
  (forall i' k', act w' i' k' = if Nat.eqb i' i && Nat.eqb k' k then f else act (sw a) i' k') ->
  (forall i' k', (i' <> i \/ k' <> k) -> hs i' k' = hnd s i' k' /\ ah i' k' = shnd a i' k') ->
  (hs i k = None /\ ah i k = false \/ hs i k = Some (hm t l i, k) /\ ah i k = true \/ hs i k = hnd s i k /\ ah i k = shnd a i k) ->
  R traced (mkC (objs s) (fun h' k' => if heqb h' (hm t l i) && Nat.eqb k' k then Some (full i k f) else els s h' k')
              (cells s) (trk s) (prepc s) (stopc s) hs w' (nxt s)) (mkS (var a) w' ah (snxt a)).
Proof.
  intros V (RW & RN & RH & RO) E L AN AC HO HI. unfold R. cbn [wd nxt hnd objs var sw shnd snxt].
  split; [reflexivity|]. split; [exact RN|]. split.
  { intros i' k'. destruct (Nat.eq_dec i' i) as [->|]; [destruct (Nat.eq_dec k' k) as [->|]|].
    - destruct HI as [(-> & ->)|[(-> & ->)|(-> & ->)]]; [tauto|split; discriminate|apply RH].
    - destruct (HO i k' (or_intror n)) as (-> & ->). apply RH.
    - destruct (HO i' k' (or_introl n)) as (-> & ->). apply RH. }
  intros l'. specialize (RO l'). destruct (var a l') as [(t', v0)|] eqn:E'; [|exact RO].
  destruct RO as (o0 & EO0 & B0). exists o0. split; [exact EO0|].
  destruct (Nat.eq_dec l' l) as [->|N].
  - rewrite E in E'. injection E' as <- <-. destruct B0 as (B1 & B2 & B3 & B4).
    cbn [body cells els trk prepc stopc hnd]. rewrite AN. split; [exact B1|]. split; [|split; [exact B3|]].
    + intros k' L'. rewrite AC, heqb_refl, Nat.eqb_refl. cbn [andb]. destruct (B2 k' L') as (C1 & C2 & C3).
      split; [exact C1|]. split; [|exact C3]. destruct (Nat.eqb_spec k' k) as [->|]; [reflexivity|exact C2].
    + intros k' h j TR Hh. destruct (Nat.eq_dec k' k) as [->|].
      * destruct HI as [(X & _)|[(X & _)|(X & _)]]; rewrite X in Hh; [discriminate| |apply (B4 k h j TR Hh)].
        injection Hh as <- <-. auto.
      * destruct (HO i k' (or_intror n)) as (X & _). rewrite X in Hh. apply (B4 k' h j TR Hh).
  - eapply body_frame; [exact B0|]. destruct v0 as [i0|]; cbn [cells trk els prepc stopc hnd].
    + destruct (sep a l t i l' t' i0 V E E' N) as (Ni & Nh). rewrite AN.
      split; [|split; [reflexivity|]; split; [reflexivity|]; split; [reflexivity|]; intros k'; apply HO; auto].
      intros k' L'. rewrite AC. destruct (heqb_spec (hm t' l' i0) (hm t l i)); [contradiction|].
      destruct (Nat.eqb_spec i0 i); [contradiction|]. auto.
    + intros G k' L'. assert (InObj l' <> hm t l i) by (apply inobj_neq; congruence).
      destruct (heqb_spec (InObj l') (hm t l i)); [contradiction|]. reflexivity.
Qed.

(** a change to the world that touches neither announcements nor activity *)
Lemma R_w traced s a w' : R traced s a -> ann w' = ann (sw a) -> act w' = act (sw a) ->
  R traced (set_w s w') (with_w a w').
Proof.
  intros (RW & RN & RH & RO) AN AC. unfold R. cbn [set_w with_w wd nxt hnd objs var sw shnd snxt].
  split; [reflexivity|]. split; [exact RN|]. split; [exact RH|]. intros l. specialize (RO l).
  destruct (var a l) as [(t, v)|]; [|exact RO]. destruct RO as (o & EO & B). exists o. split; [exact EO|].
  eapply body_frame; [exact B|]. destruct v; cbn; rewrite ?AN, ?AC; auto 10.
Qed.

Lemma cst_eta s : s = mkC (objs s) (els s) (cells s) (trk s) (prepc s) (stopc s) (hnd s) (wd s) (nxt s).
Proof. destruct s; reflexivity. Qed.

Lemma sim_stop traced s a l t v :
  Inv a -> R traced s a -> var a l = Some (t, v) -> skel t = true ->
  exists s' a', s_step a (Stop l) = Ok a' /\ step traced s (Stop l) = Ok s' /\ R traced s' a'.
Proof.
  intros V RR E ST. pose proof RR as (RW & RN & RH & RO). cbn [s_step step]. rewrite E.
  pose proof (RO l) as Rl. rewrite E in Rl. destruct Rl as (o & EO & B). rewrite EO.
  destruct v as [i|].
  - destruct B as (-> & BE & BP & BH). rewrite stop_live, ST. cbn [andb].
    unfold stopped. rewrite ST. destruct (ann (sw a) i) eqn:AN.
    + rewrite RW.
      destruct (loop_stop (hm t l i) i (seq 0 (nel t)) (set_w s (w_withdraw (sw a) i)) (nodup_ks _)) as
        (s' & F & (S1 & S2 & S3 & S4) & W & C & T & H & EL).
      { intros k I. apply in_seq in I. destruct (BE k ltac:(lia)) as (Q1 & Q2 & _). split; [exact Q1|exact Q2]. }
      rewrite F. cbn [bind]. eexists. eexists. split; [reflexivity|]. split; [reflexivity|].
      unfold R. cbn [with_w set_obj set_stopc wd nxt hnd objs var sw shnd snxt].
      split; [exact W|]. split; [rewrite S4; exact RN|]. split; [intros; rewrite H; apply RH|].
      assert (AA : forall j, ann (off_all (w_withdraw (sw a) i) t i) j = if Nat.eqb j i then false else ann (sw a) j).
      { intros j. unfold off_all. rewrite off_ann. reflexivity. }
      intros l'. unfold fupd. destruct (Nat.eqb_spec l' l) as [->|N].
      * rewrite E. eexists. split; [reflexivity|]. cbn [body set_obj set_stopc cells els trk prepc stopc hnd].
        rewrite AA, Nat.eqb_refl, andb_false_r. split; [reflexivity|]. split; [|split].
        -- intros k L. rewrite C, T, EL, heqb_refl. unfold off_all. rewrite off_act, Nat.eqb_refl, mem_seq.
           pose proof L as L0. apply Nat.ltb_lt in L. rewrite L. cbn [andb]. destruct (BE k L0) as (Q1 & _ & Q3). auto.
        -- rewrite fupd_eq, andb_false_r. reflexivity.
        -- intros k h j TR. rewrite H. apply BH. exact TR.
      * rewrite S1. specialize (RO l'). destruct (var a l') as [(t', v0)|] eqn:E'; [|exact RO].
        destruct RO as (o0 & EO0 & B0). exists o0. split; [exact EO0|]. eapply body_frame; [exact B0|].
        destruct v0 as [i0|]; cbn [set_obj set_stopc cells trk els prepc stopc hnd].
        -- destruct (sep a l t i l' t' i0 V E E' N) as (Ni & Nh). rewrite AA, fupd_neq by exact Ni.
           split; [|destruct (Nat.eqb_spec i0 i); [contradiction|]; split; [reflexivity|]; split; [apply S2|]; split; [apply S3|]; intros; rewrite H; reflexivity].
           intros k' L'. rewrite C, T, EL. unfold off_all. rewrite off_act.
           destruct (heqb_spec (hm t' l' i0) (hm t l i)); [contradiction|].
           destruct (Nat.eqb_spec i0 i); [contradiction|]. auto.
        -- intros G k' L'. rewrite EL. assert (InObj l' <> hm t l i) by (apply inobj_neq; congruence).
           destruct (heqb_spec (InObj l') (hm t l i)); [contradiction|]. reflexivity.
    + eexists. eexists. split; [reflexivity|]. split; [reflexivity|]. destruct a; exact RR.
  - destruct B as (-> & _). exists s, a. auto.
Qed.

Lemma sim_offer traced s a l t i :
  Inv a -> R traced s a -> var a l = Some (t, Some i) -> skel t = true -> ann (sw a) i = false ->
  exists s', step traced s (Offer l) = Ok s' /\ R traced s' (with_w a (w_announce (on_all (sw a) t i) i)).
Proof.
  intros V (RW & RN & RH & RO) E ST AN. cbn [step]. unfold offer.
  pose proof (RO l) as Rl. rewrite E in Rl. destruct Rl as (o & EO & (-> & BE & BP & BH)). rewrite EO.
  unfold live_obj. cbn [o_flag o_bind o_map o_ty o_owner o_home]. rewrite AN, andb_false_r.
  destruct (loop_offer (hm t l i) i (seq 0 (nel t)) (set_prepc s i) (nodup_ks _)) as
    (s' & F & (S1 & S2 & S3 & S4) & W & C & T & H & EL).
  { intros k I. apply in_seq in I. destruct (BE k ltac:(lia)) as (Q1 & Q2 & _). split; [exact Q1|].
    cbn [set_prepc els wd]. rewrite RW. exact Q2. }
  rewrite F. cbn [bind]. eexists. split; [reflexivity|].
  cbn [set_prepc wd] in W. rewrite RW in W. fold (on_all (sw a) t i) in W.
  unfold R. cbn [with_w set_obj set_w wd nxt hnd objs var sw shnd snxt].
  split; [rewrite W; reflexivity|]. split; [rewrite S4; exact RN|]. split; [intros; rewrite H; apply RH|].
  assert (AA : forall j, ann (w_announce (on_all (sw a) t i) i) j = if Nat.eqb j i then true else ann (sw a) j).
  { intros j. unfold on_all. cbn [w_announce ann]. rewrite on_ann. reflexivity. }
  assert (AC : forall j k, act (w_announce (on_all (sw a) t i) i) j k =
             if Nat.eqb j i && mem k (seq 0 (nel t)) then true else act (sw a) j k).
  { intros j k. unfold on_all. cbn [w_announce act]. apply on_act. }
  intros l'. destruct (Nat.eq_dec l' l) as [->|N].
  - rewrite E, (fupd_eq (objs s')). eexists. split; [reflexivity|]. cbn [body set_obj set_w cells els trk prepc stopc hnd].
    rewrite AA, Nat.eqb_refl, ST. split; [unfold live_obj; rewrite ST; reflexivity|]. split; [|split].
    + intros k L. rewrite C, T, EL, heqb_refl, AC, Nat.eqb_refl, mem_seq.
      pose proof L as L0. apply Nat.ltb_lt in L. rewrite L. cbn [andb]. destruct (BE k L0) as (Q1 & _ & Q3). auto.
    + discriminate.
    + intros k h j TR. rewrite H. apply BH. exact TR.
  - rewrite (fupd_neq (objs s') l l') by exact N. rewrite S1. specialize (RO l'). cbn [set_prepc objs]. destruct (var a l') as [(t', v0)|] eqn:E'; [|exact RO].
    destruct RO as (o0 & EO0 & B0). exists o0. split; [exact EO0|]. eapply body_frame; [exact B0|].
    destruct v0 as [i0|]; cbn [set_obj set_w cells trk els prepc stopc hnd].
    + destruct (sep a l t i l' t' i0 V E E' N) as (Ni & Nh). rewrite AA.
      split; [|destruct (Nat.eqb_spec i0 i); [contradiction|]; split; [reflexivity|]; split; [|split; [apply S3|]; intros; rewrite H; reflexivity]].
      * intros k' L'. rewrite C, T, EL, AC.
        destruct (heqb_spec (hm t' l' i0) (hm t l i)); [contradiction|].
        destruct (Nat.eqb_spec i0 i); [contradiction|]. auto.
      * rewrite S2. cbn [set_prepc prepc]. rewrite fupd_neq by exact Ni. reflexivity.
    + intros G k' L'. rewrite EL. assert (InObj l' <> hm t l i) by (apply inobj_neq; congruence).
      destruct (heqb_spec (InObj l') (hm t l i)); [contradiction|]. reflexivity.
Qed.

Lemma sim_step traced s a o :
  Inv a -> R traced s a -> legal traced a o ->
  match s_step a o with
  | Ok a' => exists s', step traced s o = Ok s' /\ R traced s' a'
  | Term => step traced s o = Term
  | UB => False
  end.
Proof.
  intros V RR L. destruct o as [l t|d r|d r|l|l|l|l k|l k|i k|l k|l k|l k|i k].
  - cbn [legal s_step] in *. apply sim_create; assumption.
  - apply sim_ctor; assumption.
  - apply sim_assign; assumption.
  - destruct L as (t & v & E & ME). eapply sim_destroy; eassumption.
  - destruct L as (t & i & E & ST & AN). cbn [s_step]. rewrite E. apply sim_offer; assumption.
  - destruct L as (t & v & E & ST). destruct (sim_stop traced s a l t v V RR E ST) as (s' & a' & S & F & R').
    rewrite S. eauto.
  - (* Use *)
    destruct L as (t & v & E & Lk & LM). pose proof RR as (RW & _). cbn [s_step step]. rewrite E. destruct v as [i|].
    + rewrite (R_my traced s a l t i k RR E Lk). cbn [bind live_obj o_ty full e_flag e_bind].
      destruct (skel t) eqn:ST.
      * rewrite (v_skel a V l t i k E ST Lk). destruct (ann (sw a) i); eexists; (split; [reflexivity|apply R_say; exact RR]).
      * rewrite RW. eexists. split; [reflexivity|]. rewrite <- RW at 1. apply R_say. exact RR.
    + destruct (LM eq_refl) as (ST & GT). rewrite (R_my_moved traced s a l t k RR E GT Lk).
      cbn [bind o_ty moved e_flag]. rewrite ST. eexists. split; [reflexivity|]. apply R_say. exact RR.
  - (* Take *)
    destruct L as (t & v & E & Lk & LM). pose proof RR as (RW & _). cbn [s_step step]. rewrite E. destruct v as [i|].
    + rewrite (R_my traced s a l t i k RR E Lk). cbn [bind live_obj o_ty full e_flag e_bind e_trk].
      rewrite RW. destruct (skel t) eqn:ST; cbn [andb negb].
      * rewrite (v_skel a V l t i k E ST Lk). destruct (ann (sw a) i); cbn [negb]; eexists; (split; [reflexivity|]);
        apply R_w; try exact RR; reflexivity.
      * destruct (act (sw a) i k); cbn [negb]; eexists; (split; [reflexivity|]); apply R_w; try exact RR; reflexivity.
    + destruct (LM eq_refl) as (ST & GT). rewrite (R_my_moved traced s a l t k RR E GT Lk).
      cbn [bind o_ty moved e_flag]. rewrite ST. eexists. split; [reflexivity|]. apply R_say. exact RR.
  - (* Give *)
    cbn [legal s_step step] in *. pose proof RR as (RW & _ & _ & RO).
    destruct (v_held a V i k L) as (l & t & E & Lk). specialize (RO l). rewrite E in RO.
    destruct RO as (o & _ & (_ & BE & _)). destruct (BE k Lk) as (_ & _ & T). rewrite T, RW.
    eexists. split; [reflexivity|]. apply R_w; [exact RR|reflexivity|reflexivity].
  - (* Subscribe *)
    destruct L as (t & i & E & ST & Lk). pose proof RR as (RW & RN & _). cbn [s_step step]. rewrite E.
    rewrite (R_my traced s a l t i k RR E Lk). cbn [bind full e_bind]. rewrite RW.
    destruct (act (sw a) i k) eqn:A; eexists; (split; [reflexivity|]); unfold set_el, set_w, with_w;
    cbn [objs els cells trk prepc stopc hnd wd nxt with_flag full e_cell e_bind e_trk];
    [rewrite RW|]; (eapply R_elem; [exact V|exact RR|exact E|exact Lk|reflexivity| |auto|auto]).
    + intros i' k'. destruct (Nat.eqb_spec i' i) as [->|]; cbn [andb]; [|reflexivity].
      destruct (Nat.eqb_spec k' k) as [->|]; [exact A|reflexivity].
    + intros i' k'. reflexivity.
  - (* Unsubscribe *)
    destruct L as (t & i & E & ST & Lk). pose proof RR as (RW & RN & _). cbn [s_step step]. rewrite E.
    rewrite (R_my traced s a l t i k RR E Lk). cbn [bind]. unfold unsub_at. cbn [full e_flag e_bind e_trk in_use].
    rewrite RW. destruct (act (sw a) i k) eqn:A; [|eauto].
    destruct (Nat.ltb 0 (held (sw a) i k)); [reflexivity|].
    eexists. split; [reflexivity|]. unfold set_el, set_hnd, set_w.
    cbn [objs els cells trk prepc stopc hnd wd nxt with_flag full e_cell e_bind e_trk].
    eapply R_elem; [exact V|exact RR|exact E|exact Lk|reflexivity| | |].
    + intros i' k'. reflexivity.
    + intros i' k' D. unfold fupd2. destruct (Nat.eqb_spec i' i), (Nat.eqb_spec k' k); cbn [andb]; try auto. destruct D; contradiction.
    + left. unfold fupd2. rewrite !Nat.eqb_refl. auto.
  - (* SetHandler *)
    destruct L as (t & i & E & ST & Lk). pose proof RR as (RW & RN & _ & RO). cbn [s_step step]. rewrite E.
    rewrite (R_my traced s a l t i k RR E Lk). cbn [bind full e_bind].
    eexists. split; [reflexivity|]. unfold set_hnd, set_w. cbn [objs els cells trk prepc stopc hnd wd nxt].
    rewrite RW.
    assert (X := R_elem traced s a l t i k (say (sw a) (HandlerSet i k)) (fupd2 (hnd s) i k (Some (hm t l i, k)))
                   (fupd2 (shnd a) i k true) (act (sw a) i k) V RR E Lk eq_refl).
    assert (X1 : forall i' k', act (say (sw a) (HandlerSet i k)) i' k' =
                 if Nat.eqb i' i && Nat.eqb k' k then act (sw a) i k else act (sw a) i' k').
    { intros i' k'. cbn [say act]. destruct (Nat.eqb_spec i' i) as [->|]; cbn [andb]; [|reflexivity].
      destruct (Nat.eqb_spec k' k) as [->|]; reflexivity. }
    specialize (X X1).
    assert (X2 : forall i' k', i' <> i \/ k' <> k ->
      fupd2 (hnd s) i k (Some (hm t l i, k)) i' k' = hnd s i' k' /\ fupd2 (shnd a) i k true i' k' = shnd a i' k').
    { intros i' k' D. unfold fupd2. destruct (Nat.eqb_spec i' i), (Nat.eqb_spec k' k); cbn [andb]; try auto. destruct D; contradiction. }
    specialize (X X2).
    assert (X3 : fupd2 (hnd s) i k (Some (hm t l i, k)) i k = None /\ fupd2 (shnd a) i k true i k = false \/
       fupd2 (hnd s) i k (Some (hm t l i, k)) i k = Some (hm t l i, k) /\ fupd2 (shnd a) i k true i k = true \/
       fupd2 (hnd s) i k (Some (hm t l i, k)) i k = hnd s i k /\ fupd2 (shnd a) i k true i k = shnd a i k).
    { right; left. unfold fupd2. rewrite !Nat.eqb_refl. auto. }
    specialize (X X3).
    (* the elements are what they were *)
    destruct X as (Y1 & Y2 & Y3 & Y4). unfold R. cbn [wd nxt hnd objs var sw shnd snxt] in *.
    split; [exact Y1|]. split; [exact Y2|]. split; [exact Y3|].
    intros l'. specialize (Y4 l'). destruct (var a l') as [(t', v0)|] eqn:E'; [|exact Y4].
    destruct Y4 as (o0 & EO0 & B0). exists o0. split; [exact EO0|].
    assert (EQ : forall h' k', els s h' k' = (if heqb h' (hm t l i) && Nat.eqb k' k then Some (full i k (act (sw a) i k)) else els s h' k')).
    { intros h' k'. destruct (heqb_spec h' (hm t l i)) as [->|]; cbn [andb]; [|reflexivity].
      destruct (Nat.eqb_spec k' k) as [->|]; [|reflexivity]. specialize (RO l). rewrite E in RO.
      destruct RO as (o1 & _ & (_ & BE & _)). destruct (BE k Lk) as (_ & Q & _). exact Q. }
    eapply body_frame; [exact B0|]. destruct v0 as [i0|]; cbn [cells trk els prepc stopc hnd].
    + split; [|auto]. intros k' L'. split; [reflexivity|]. split; [reflexivity|]. split; [apply EQ|reflexivity].
    + intros G k' L'. apply EQ.
  - (* Notify *)
    cbn [s_step step]. pose proof RR as (RW & RN & RH & RO).
    destruct (shnd a i k) eqn:SH; cbn [andb].
    + destruct (hnd s i k) as [(h, j)|] eqn:HS; [|apply RH in HS; congruence].
      rewrite RW. destruct (act (sw a) i k) eqn:A; [|eauto].
      destruct traced eqn:TR; [|eexists; split; [reflexivity|]; rewrite <- RW at 1; apply R_say; exact RR].
      destruct (v_hnd a V i k SH) as (l & t & E & Lk & _). pose proof (RO l) as RL. rewrite E in RL.
      destruct RL as (o1 & _ & (_ & BE & _ & BH)). destruct (BH k h j eq_refl HS) as (-> & ->).
      destruct (BE k Lk) as (_ & Q & _). rewrite Q. eexists; split; [reflexivity|]; rewrite <- RW at 1; apply R_say; exact RR.
    + apply RH in SH. rewrite SH. eauto.
Qed.

Lemma R0 traced : R traced s0 a0.
Proof. unfold R, s0, a0. cbn. split; [reflexivity|]. split; [reflexivity|]. split; [tauto|auto]. Qed.

Lemma sim_run traced os : forall s a, Inv a -> R traced s a -> legal_run traced a os ->
  match s_run a os with
  | Ok a' => exists s', run traced s os = Ok s' /\ R traced s' a' /\ Inv a'
  | Term => run traced s os = Term
  | UB => False
  end.
Proof.
  induction os as [|o r IH]; intros s a V RR L; cbn [s_run run].
  - eauto.
  - destruct L as (L & Lr). pose proof (sim_step traced s a o V RR L) as S.
    destruct (s_step a o) as [a1| |] eqn:E; cbn [bind].
    + destruct S as (s1 & F & R1). rewrite F. cbn [bind]. apply IH; [eapply inv_step; eassumption|exact R1|apply Lr; reflexivity].
    + rewrite S. reflexivity.
    + exact S.
Qed.
