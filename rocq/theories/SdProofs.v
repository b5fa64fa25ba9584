(** Proofs about service discovery: the invariant of SdModel and its preservation. *)
From Verif Require Import Base SdModel.

(** * Sets as lists *)

Lemma pair_eqb_eq a b : pair_eqb a b = true <-> a = b.
Proof.
  destruct a as [i q], b as [j r]. unfold pair_eqb. cbn [fst snd]. rewrite andb_true_iff, Nat.eqb_eq, Bool.eqb_true_iff.
  split; [intros [-> ->]; reflexivity|intros E; injection E; auto].
Qed.

Lemma has_In p l : has p l = true <-> In p l.
Proof.
  unfold has. rewrite existsb_exists. split.
  - intros (x & X1 & X2). apply pair_eqb_eq in X2. subst x. exact X1.
  - intros H. exists p. split; [exact H|]. apply pair_eqb_eq. reflexivity.
Qed.

Lemma mem_In n l : mem n l = true <-> In n l.
Proof.
  unfold mem. rewrite existsb_exists. split.
  - intros (x & X1 & X2). apply Nat.eqb_eq in X2. subst x. exact X1.
  - intros H. exists n. split; [exact H|]. apply Nat.eqb_refl.
Qed.

Lemma mem_false n l : mem n l = false <-> ~ In n l.
Proof. rewrite <- mem_In. destruct (mem n l); intuition congruence. Qed.

Lemma has_false p l : has p l = false <-> ~ In p l.
Proof. rewrite <- has_In. destruct (has p l); intuition congruence. Qed.

Lemma dir_eqb_eq a b : dir_eqb a b = true <-> a = b.
Proof.
  destruct a as [i|], b as [j|]; cbn; try (intuition congruence). rewrite Nat.eqb_eq. intuition congruence.
Qed.

Lemma dir_eqb_refl a : dir_eqb a a = true.
Proof. apply dir_eqb_eq. reflexivity. Qed.

Lemma dir_eqb_neq a b : a <> b -> dir_eqb a b = false.
Proof. intros H. destruct (dir_eqb a b) eqn:E; [|reflexivity]. apply dir_eqb_eq in E. contradiction. Qed.

Lemma In_insert p x l : In p (insert x l) <-> p = x \/ In p l.
Proof.
  unfold insert. destruct (has x l) eqn:E; cbn; [|intuition congruence].
  apply has_In in E. split; [auto|]. intros [->|H]; assumption.
Qed.

Lemma In_remove p x l : In p (remove x l) <-> p <> x /\ In p l.
Proof.
  unfold remove. rewrite filter_In, negb_true_iff. split.
  - intros [H E]. split; [|exact H]. intros ->. rewrite (proj2 (pair_eqb_eq x x) eq_refl) in E. discriminate.
  - intros [N H]. split; [exact H|]. destruct (pair_eqb x p) eqn:E; [|reflexivity]. apply pair_eqb_eq in E. congruence.
Qed.

Lemma In_merge p f l : In p (merge f l) <-> In p f \/ In p l.
Proof.
  induction f as [|x r IH]; cbn; [tauto|]. rewrite In_insert, IH. intuition congruence.
Qed.

Lemma In_add n m l : In n (add m l) <-> n = m \/ In n l.
Proof.
  unfold add. destruct (mem m l) eqn:E; cbn; [|intuition congruence].
  apply mem_In in E. split; [auto|]. intros [->|H]; assumption.
Qed.

Lemma In_del n m l : In n (del m l) <-> n <> m /\ In n l.
Proof.
  unfold del. rewrite filter_In, negb_true_iff, Nat.eqb_neq. intuition congruence.
Qed.

Lemma NoDup_add m l : NoDup l -> NoDup (add m l).
Proof.
  intros H. unfold add. destruct (mem m l) eqn:E; [exact H|]. constructor; [|exact H]. apply mem_false. exact E.
Qed.

Lemma NoDup_del m l : NoDup l -> NoDup (del m l).
Proof. intros H. unfold del. apply NoDup_filter. exact H. Qed.

Lemma In_handles i l d q : In i (handles l d q) <-> In (i, q) l /\ (d = None \/ d = Some i).
Proof.
  unfold handles. destruct d as [j|].
  - destruct (has (j, q) l) eqn:E; cbn.
    + apply has_In in E. split; [intros [->|[]]; auto|]. intros [_ [H|H]]; [discriminate|injection H; auto].
    + apply has_false in E. split; [intros []|]. intros [H [Z|Z]]; [discriminate|]. injection Z as ->. contradiction.
  - rewrite in_map_iff. split.
    + intros ((j & r) & E & H). cbn in E. subst j. apply filter_In in H. destruct H as [H E]. cbn in E.
      apply Bool.eqb_prop in E. subst r. auto.
    + intros [H _]. exists (i, q). split; [reflexivity|]. apply filter_In. split; [exact H|]. cbn. apply Bool.eqb_reflx.
Qed.

Lemma same_set_spec a b : same_set a b = true <-> forall i, In i a <-> In i b.
Proof.
  unfold same_set. rewrite andb_true_iff, !forallb_forall. split.
  - intros [A B] i. split; intros H; [apply mem_In, A, H|apply mem_In, B, H].
  - intros H. split; intros x X; apply mem_In; apply H; exact X.
Qed.

Lemma In_pairs i q l : In (i, q) (pairs l) <-> In i l.
Proof.
  unfold pairs. rewrite in_flat_map. split.
  - intros (j & J & [E|[E|[]]]); injection E as -> _; exact J.
  - intros H. exists i. split; [exact H|]. destruct q; cbn; auto.
Qed.

(** * Events still to be handled *)

Definition batch_of (w : worker) : list (wd * ev) :=
  match w with
  | WIdle | WCallC _ => []
  | WGot b => b
  | WDel r _ cre => r ++ cre
  | WCallD _ cre => cre
  | WCre r _ => r
  end.

Definition pend (s : st) : list (wd * ev) := batch_of (wrk s) ++ queue (ker s).

Definition imp (s : st) : list handle :=
  match wrk s with
  | WIdle | WGot _ => []
  | WDel _ l _ | WCallD l _ | WCre _ l | WCallC l => l
  end.

(** What one event says about the flag file of quality q in the directory watched by w. *)
Definition says (w : wd) (q : bool) (x : wd * ev) : option bool :=
  if fst x =? w then
    match snd x with
    | ECreate q' => if Bool.eqb q q' then Some true else None
    | EDelete q' => if Bool.eqb q q' then Some false else None
    | _ => None
    end
  else None.

Fixpoint lastev (l : list (wd * ev)) (w : wd) (q : bool) : option bool :=
  match l with
  | [] => None
  | x :: r => match lastev r w q with Some b => Some b | None => says w q x end
  end.

Lemma lastev_app a b w q : lastev (a ++ b) w q = match lastev b w q with Some v => Some v | None => lastev a w q end.
Proof.
  induction a as [|x r IH]; cbn; [destruct (lastev b w q); reflexivity|]. rewrite IH. destruct (lastev b w q); reflexivity.
Qed.

Lemma lastev_none l w q : lastev l w q = None <-> forall x, In x l -> says w q x = None.
Proof.
  induction l as [|x r IH]; cbn; [split; [intros _ x []|reflexivity]|]. split.
  - intros H. destruct (lastev r w q) eqn:E; [discriminate|]. intros y [<-|Y]; [exact H|]. apply IH; [reflexivity|exact Y].
  - intros H. rewrite (proj2 IH (fun y Y => H y (or_intror Y))). apply H. left. reflexivity.
Qed.

(** A batch in which no flag file is created and then removed. *)
Fixpoint no_flip (l : list (wd * ev)) : bool :=
  match l with
  | [] => true
  | (w, e) :: r =>
      match e with
      | ECreate q => negb (existsb (fun x => match says w q x with Some false => true | _ => false end) r)
      | _ => true
      end && no_flip r
  end.

Lemma lastev_split l w q : no_flip l = true -> lastev (filter is_del l ++ filter is_cre l) w q = lastev l w q.
Proof.
  induction l as [|[w' e] r IH]; [reflexivity|]. intros N. cbn [no_flip] in N. apply andb_prop in N. destruct N as [N1 N2].
  specialize (IH N2). cbn [lastev]. rewrite <- IH. rewrite !lastev_app.
  destruct e as [i|q'|q'|]; cbn [filter is_del is_cre snd].
  - cbn [lastev]. assert (Z : says w q (w', EMkdir i) = None) by (unfold says; cbn [fst snd]; destruct (w' =? w); reflexivity).
    rewrite Z. destruct (lastev (filter is_cre r) w q); [reflexivity|].
    destruct (lastev (filter is_del r) w q); reflexivity.
  - cbn [lastev]. destruct (lastev (filter is_cre r) w q) eqn:E1; [reflexivity|].
    destruct (says w q (w', ECreate q')) eqn:S; [|destruct (lastev (filter is_del r) w q); reflexivity].
    unfold says in S. cbn [fst snd] in S. destruct (w' =? w) eqn:W; [|discriminate]. apply Nat.eqb_eq in W. subst w'.
    destruct (Bool.eqb q q') eqn:Q; [|discriminate]. apply Bool.eqb_prop in Q. subst q'. injection S as <-.
    assert (Z : lastev (filter is_del r) w q = None).
    { apply lastev_none. intros [w1 e1] X. apply filter_In in X. destruct X as [X D].
      apply negb_true_iff in N1. destruct (says w q (w1, e1)) as [v|] eqn:S1; [|reflexivity]. exfalso.
      assert (T : existsb (fun x => match says w q x with Some false => true | _ => false end) r = true).
      { apply existsb_exists. exists (w1, e1). split; [exact X|]. rewrite S1. destruct v; [|reflexivity].
        unfold says in S1. cbn [fst snd] in S1. destruct (w1 =? w); [|discriminate].
        destruct e1; cbn in D; try discriminate. destruct (Bool.eqb q q0); discriminate. }
      congruence. }
    rewrite Z. reflexivity.
  - cbn [lastev]. destruct (lastev (filter is_cre r) w q); [reflexivity|].
    destruct (lastev (filter is_del r) w q); reflexivity.
  - cbn [lastev]. destruct (lastev (filter is_cre r) w q); [reflexivity|].
    destruct (lastev (filter is_del r) w q); reflexivity.
Qed.

Lemma In_split_batch l x : (is_del x = true \/ is_cre x = true) -> (In x (filter is_del l ++ filter is_cre l) <-> In x l).
Proof. intros H. rewrite in_app_iff, !filter_In. tauto. Qed.

Lemma any_event x : is_del x = true \/ is_cre x = true.
Proof. destruct x as [w [ ]]; cbn; auto. Qed.

(** * The structure of the client's tables *)

Record Mok (c : client) : Prop := {
  m_main : forall d w ch, watched c d = Some (Some w, ch) -> exists x, watches c w = Some x /\ w_dir x = d;
  m_kids : forall m ch w, watched c None = Some (m, ch) ->
             (In w ch <-> exists x i, watches c w = Some x /\ w_dir x = Some i);
  m_some : forall w x i, watches c w = Some x -> w_dir x = Some i -> watched c None <> None;
  m_leaf : forall i m ch, watched c (Some i) = Some (m, ch) -> ch = [];
}.

(** [c'] is [c] with the links [N w d h] added, storing watches where needed. *)
Record grown (c : client) (N : wd -> dir -> handle -> Prop) (c' : client) : Prop := {
  g_known : known c' = known c;
  g_obs : obsolete c' = obsolete c;
  g_log : log c' = log c;
  g_none : forall h, searches c h = None -> searches c' h = None;
  g_some : forall h s, searches c h = Some s -> exists s', searches c' h = Some s' /\
             s_dir s' = s_dir s /\ s_q s' = s_q s /\ s_prev s' = s_prev s /\ (NoDup (s_wds s) -> NoDup (s_wds s')) /\
             forall w, In w (s_wds s') <-> In w (s_wds s) \/ exists d, N w d h;
  g_kept : forall w x, watches c w = Some x -> exists x', watches c' w = Some x' /\ w_dir x' = w_dir x /\
             forall h, In h (w_hs x') <-> In h (w_hs x) \/ exists d, N w d h;
  g_new : forall w x', watches c w = None -> watches c' w = Some x' ->
             exists d, w_dir x' = d /\ (exists h, N w d h) /\ forall h, In h (w_hs x') <-> exists d', N w d' h;
  g_there : forall w d h, N w d h -> exists x', watches c' w = Some x';
  g_mok : Mok c -> Mok c';
}.

Lemma store_watch_known c w d : known (store_watch c w d) = known c.
Proof.
  unfold store_watch. destruct (watches c w), d; cbn;
    repeat match goal with |- context [match ?X with _ => _ end] => destruct X; cbn end; reflexivity.
Qed.
Lemma store_watch_obs c w d : obsolete (store_watch c w d) = obsolete c.
Proof.
  unfold store_watch. destruct (watches c w), d; cbn;
    repeat match goal with |- context [match ?X with _ => _ end] => destruct X; cbn end; reflexivity.
Qed.
Lemma store_watch_log c w d : log (store_watch c w d) = log c.
Proof.
  unfold store_watch. destruct (watches c w), d; cbn;
    repeat match goal with |- context [match ?X with _ => _ end] => destruct X; cbn end; reflexivity.
Qed.
Lemma store_watch_searches c w d : searches (store_watch c w d) = searches c.
Proof.
  unfold store_watch. destruct (watches c w), d; cbn;
    repeat match goal with |- context [match ?X with _ => _ end] => destruct X; cbn end; reflexivity.
Qed.

Lemma store_watch_watches c w d w' :
  watches (store_watch c w d) w' = if w =? w' then match watches c w with Some x => Some x | None => Some (mkW d []) end else watches c w'.
Proof.
  assert (E : watches (store_watch c w d) =
              watches (match watches c w with Some _ => c | None => set_watch c w (Some (mkW d [])) end)).
  { unfold store_watch.
    repeat match goal with |- context [match ?X with _ => _ end] => destruct X; cbn end; reflexivity. }
  rewrite E. destruct (watches c w) as [x|] eqn:W; cbn.
  - destruct (w =? w') eqn:Q; [|reflexivity]. apply Nat.eqb_eq in Q. subst w'. exact W.
  - reflexivity.
Qed.

Lemma store_watch_mok c w d :
  (forall x, watches c w = Some x -> w_dir x = d) -> Mok c -> Mok (store_watch c w d).
Proof.
  intros D M.
  assert (SW : exists x, watches (store_watch c w d) w = Some x /\ w_dir x = d).
  { rewrite store_watch_watches, Nat.eqb_refl. destruct (watches c w) as [x|] eqn:E; eexists; split; try reflexivity.
    apply D. reflexivity. }
  assert (KW : forall w' x, watches c w' = Some x -> watches (store_watch c w d) w' = Some x).
  { intros w' x E. rewrite store_watch_watches. destruct (w =? w') eqn:Q; [|exact E]. apply Nat.eqb_eq in Q. subst w'. rewrite E. reflexivity. }
  assert (OW : forall w' x, watches (store_watch c w d) w' = Some x -> (w' = w /\ w_dir x = d) \/ watches c w' = Some x).
  { intros w' x E. rewrite store_watch_watches in E. destruct (w =? w') eqn:Q; [|auto]. apply Nat.eqb_eq in Q. subst w'.
    destruct (watches c w) as [y|] eqn:Y; [right; exact E|]. injection E as <-. left. auto. }
  (* the table of directories *)
  assert (T0 : forall d', d' <> None -> watched (store_watch c w d) d' = watched c d'
                 \/ d' = d /\ watched (store_watch c w d) d' = Some (Some w, [])).
  { intros d' ND. unfold store_watch. set (c1 := match watches c w with Some _ => c | None => set_watch c w (Some (mkW d [])) end).
    assert (E1 : watched c1 = watched c) by (unfold c1; destruct (watches c w); reflexivity).
    rewrite E1. destruct (watched c d) as [y|] eqn:Y; cbn.
    - left. destruct d as [i|]; [|rewrite E1; reflexivity]. rewrite E1.
      destruct (watched c None) as [[m ch]|]; cbn; rewrite E1; destruct d'; try congruence; reflexivity.
    - destruct d as [i|]; cbn.
      + rewrite E1. destruct (watched c None) as [[m ch]|]; cbn; rewrite E1; destruct d' as [j|]; try congruence;
          (destruct (i =? j) eqn:Q; [apply Nat.eqb_eq in Q; subst j; right; auto|left; reflexivity]).
      + rewrite E1. destruct d' as [j|]; [left; reflexivity|congruence]. }
  assert (T1 : watched (store_watch c w d) None =
               match d with
               | None => match watched c None with Some y => Some y | None => Some (Some w, []) end
               | Some _ => match watched c None with Some (m, ch) => Some (m, add w ch) | None => Some (None, [w]) end
               end).
  { unfold store_watch. set (c1 := match watches c w with Some _ => c | None => set_watch c w (Some (mkW d [])) end).
    assert (E1 : watched c1 = watched c) by (unfold c1; destruct (watches c w); reflexivity).
    rewrite E1. destruct d as [i|].
    - destruct (watched c (Some i)) as [y|] eqn:Y; cbn; rewrite E1; destruct (watched c None) as [[m ch]|]; reflexivity.
    - destruct (watched c None) as [y|] eqn:Y; cbn; [rewrite E1; exact Y|reflexivity]. }
  constructor.
  - intros d' w' ch E. destruct d' as [i|].
    + destruct (T0 (Some i)) as [T|[T1' T]]; [discriminate| |].
      * rewrite T in E. destruct (m_main _ M _ _ _ E) as (x & X1 & X2). exists x. split; [apply KW; exact X1|exact X2].
      * rewrite T in E. injection E as <- _. rewrite T1'. exact SW.
    + rewrite T1 in E. destruct d as [i|].
      * destruct (watched c None) as [[m ch']|] eqn:Y; [|discriminate]. injection E as -> _.
        destruct (m_main _ M _ _ _ Y) as (x & X1 & X2). exists x. split; [apply KW; exact X1|exact X2].
      * destruct (watched c None) as [y|] eqn:Y.
        -- injection E as ->. destruct (m_main _ M _ _ _ Y) as (x & X1 & X2). exists x. split; [apply KW; exact X1|exact X2].
        -- injection E as <- _. exact SW.
  - intros m ch w' E. rewrite T1 in E. destruct d as [i|].
    + destruct (watched c None) as [[m' ch']|] eqn:Y.
      * injection E as <- <-. rewrite In_add, (m_kids _ M _ _ w' Y). split.
        -- intros [->|(x & j & X1 & X2)].
           ++ destruct SW as (x & X1 & X2). exists x, i. auto.
           ++ exists x, j. split; [apply KW; exact X1|exact X2].
        -- intros (x & j & X1 & X2). destruct (OW _ _ X1) as [[-> _]|O]; [left; reflexivity|]. right. exists x, j. auto.
      * injection E as _ <-. cbn. split.
        -- intros [<-|[]]. destruct SW as (x & X1 & X2). exists x, i. auto.
        -- intros (x & j & X1 & X2). destruct (OW _ _ X1) as [[-> _]|O]; [left; reflexivity|]. exfalso.
           apply (m_some _ M _ _ _ O X2). exact Y.
    + assert (Z : (exists x j, watches (store_watch c w None) w' = Some x /\ w_dir x = Some j) <->
                  (exists x j, watches c w' = Some x /\ w_dir x = Some j)).
      { split; intros (x & j & X1 & X2).
        - destruct (OW _ _ X1) as [[_ O]|O]; [congruence|]. exists x, j. auto.
        - exists x, j. split; [apply KW; exact X1|exact X2]. }
      rewrite Z. destruct (watched c None) as [[m' ch']|] eqn:Y.
      * injection E as <- <-. apply (m_kids _ M _ _ w' Y).
      * injection E as _ <-. cbn. split; [tauto|]. intros (x & j & X1 & X2). exfalso. apply (m_some _ M _ _ _ X1 X2). exact Y.
  - intros w' x i X1 X2. rewrite T1. destruct d as [j|].
    + destruct (watched c None) as [[m ch]|]; discriminate.
    + destruct (watched c None); discriminate.
  - intros i m ch E. destruct (T0 (Some i)) as [T|[T1' T]]; [discriminate| |].
    + rewrite T in E. apply (m_leaf _ M _ _ _ E).
    + rewrite T in E. congruence.
Qed.

(** A change of links only keeps the table of directories right. *)
Lemma mok_ext c c' :
  watched c' = watched c ->
  (forall w x, watches c w = Some x -> exists x', watches c' w = Some x' /\ w_dir x' = w_dir x) ->
  (forall w x', watches c' w = Some x' -> exists x, watches c w = Some x /\ w_dir x' = w_dir x) ->
  Mok c -> Mok c'.
Proof.
  intros E A B M. constructor; rewrite E.
  - intros d w ch H. destruct (m_main _ M _ _ _ H) as (x & X1 & X2). destruct (A _ _ X1) as (x' & Y1 & Y2). exists x'. split; congruence.
  - intros m ch w H. rewrite (m_kids _ M _ _ w H). split; intros (x & i & X1 & X2).
    + destruct (A _ _ X1) as (x' & Y1 & Y2). exists x', i. split; congruence.
    + destruct (B _ _ X1) as (x' & Y1 & Y2). exists x', i. split; congruence.
  - intros w x i X1 X2. destruct (B _ _ X1) as (x' & Y1 & Y2). apply (m_some _ M w x' i); congruence.
  - intros i m ch H. apply (m_leaf _ M _ _ _ H).
Qed.

Lemma link_spec c w h x s :
  watches c w = Some x -> searches c h = Some s ->
  exists c', link c w h = Some c' /\
    known c' = known c /\ obsolete c' = obsolete c /\ log c' = log c /\ watched c' = watched c /\
    (forall h', searches c' h' = if h =? h' then Some (mkS (s_dir s) (s_q s) (add w (s_wds s)) (s_prev s)) else searches c h') /\
    (forall w', watches c' w' = if w =? w' then Some (mkW (w_dir x) (add h (w_hs x))) else watches c w').
Proof.
  intros X S. unfold link. rewrite X, S. eexists. split; [reflexivity|]. cbn. repeat split.
Qed.

Lemma link_all_grown w hs : forall c x,
  watches c w = Some x -> (forall h, In h hs -> exists s, searches c h = Some s) ->
  exists c', link_all c w hs = Some c' /\ grown c (fun w' d h => w' = w /\ d = w_dir x /\ In h hs) c'.
Proof.
  induction hs as [|h r IH]; intros c x X H.
  - exists c. split; [reflexivity|]. constructor; try reflexivity; auto.
    + intros h s S. exists s. repeat split; auto. intros [A|(d & _ & _ & [])]. exact A.
    + intros w' x' X'. exists x'. repeat split; auto. intros [A|(d & _ & _ & [])]. exact A.
    + intros w' x' A B. congruence.
    + intros w' d h (_ & _ & []).
  - destruct (H h (or_introl eq_refl)) as (s & S).
    destruct (link_spec c w h x s X S) as (c1 & L & K1 & K2 & K3 & K4 & K5 & K6).
    assert (X1 : watches c1 w = Some (mkW (w_dir x) (add h (w_hs x)))) by (rewrite K6, Nat.eqb_refl; reflexivity).
    destruct (IH c1 _ X1) as (c' & E & G).
    { intros h' H'. rewrite K5. destruct (h =? h'); [eexists; reflexivity|]. apply H. right. exact H'. }
    exists c'. split; [cbn [link_all]; rewrite L; exact E|]. cbn [w_dir] in G.
    constructor.
    + rewrite (g_known _ _ _ G). exact K1.
    + rewrite (g_obs _ _ _ G). exact K2.
    + rewrite (g_log _ _ _ G). exact K3.
    + intros h' N. apply (g_none _ _ _ G). rewrite K5. destruct (h =? h') eqn:Q; [|exact N]. apply Nat.eqb_eq in Q. congruence.
    + intros h' s' S'. destruct (Nat.eq_dec h h') as [<-|NE].
      * assert (s' = s) by congruence. subst s'.
        destruct (g_some _ _ _ G h (mkS (s_dir s) (s_q s) (add w (s_wds s)) (s_prev s))) as (s2 & A1 & A2 & A3 & A4 & A5 & A6).
        { rewrite K5, Nat.eqb_refl. reflexivity. }
        cbn in A2, A3, A4, A5, A6. exists s2. do 5 (split; [try assumption; auto using NoDup_add|]).
        intros w'. rewrite A6, In_add. cbn [In]. split.
        -- intros [[->|A]|(d & Z1 & Z2 & Z3)]; [right; exists (w_dir x); auto|auto|right; exists d; auto].
        -- intros [A|(d & -> & _ & _)]; auto.
      * assert (S1 : searches c1 h' = Some s') by (rewrite K5, (proj2 (Nat.eqb_neq h h') NE); exact S').
        destruct (g_some _ _ _ G h' s' S1) as (s2 & A1 & A2 & A3 & A4 & A5 & A6).
        exists s2. do 5 (split; [assumption|]). intros w'. rewrite A6. cbn [In]. split.
        -- intros [A|(d & Z1 & Z2 & Z3)]; [auto|right; exists d; auto].
        -- intros [A|(d & Z1 & Z2 & [Z3|Z3])]; [auto|congruence|right; exists d; auto].
    + intros w' x' X'. destruct (Nat.eq_dec w w') as [<-|NE].
      * assert (x' = x) by congruence. subst x'.
        destruct (g_kept _ _ _ G w _ X1) as (x2 & A1 & A2 & A3). cbn in A2, A3. exists x2. split; [exact A1|]. split; [exact A2|].
        intros h'. rewrite A3, In_add. cbn [In]. split.
        -- intros [[->|A]|(d & Z1 & Z2 & Z3)]; [right; exists (w_dir x); auto|auto|right; exists d; auto].
        -- intros [A|(d & Z1 & Z2 & [<-|Z3])]; [auto|auto|right; exists d; auto].
      * assert (X1' : watches c1 w' = Some x') by (rewrite K6, (proj2 (Nat.eqb_neq w w') NE); exact X').
        destruct (g_kept _ _ _ G w' _ X1') as (x2 & A1 & A2 & A3). exists x2. split; [exact A1|]. split; [exact A2|].
        intros h'. rewrite A3. split; (intros [A|(d & Z1 & _)]; [auto|congruence]).
    + intros w' x' N X'. assert (N1 : watches c1 w' = None).
      { rewrite K6. destruct (w =? w') eqn:Q; [apply Nat.eqb_eq in Q; congruence|exact N]. }
      destruct (g_new _ _ _ G w' x' N1 X') as (d & _ & (h' & Z1 & _) & _). congruence.
    + intros w' d h' (-> & _ & _). destruct (g_kept _ _ _ G w _ X1) as (x2 & A1 & _). exists x2. exact A1.
    + intros M. apply (g_mok _ _ _ G). refine (mok_ext c c1 K4 _ _ M).
      * intros w' x' X'. rewrite K6. destruct (w =? w') eqn:Q; [|exists x'; auto]. apply Nat.eqb_eq in Q. subst w'.
        assert (x' = x) by congruence. subst x'. eexists. split; [reflexivity|reflexivity].
      * intros w' x'. rewrite K6. destruct (w =? w') eqn:Q; [|intros X'; exists x'; auto]. apply Nat.eqb_eq in Q. subst w'.
        intros E'. injection E' as <-. exists x. auto.
Qed.

Lemma store_link_grown c w d h s :
  searches c h = Some s -> (forall x, watches c w = Some x -> w_dir x = d) ->
  exists c', link (store_watch c w d) w h = Some c' /\ grown c (fun w' d' h' => w' = w /\ d' = d /\ h' = h) c'.
Proof.
  intros S D. set (c0 := store_watch c w d).
  assert (X : exists x, watches c0 w = Some x /\ w_dir x = d /\
                (watches c w = None -> w_hs x = []) /\ (forall y, watches c w = Some y -> x = y)).
  { unfold c0. rewrite store_watch_watches, Nat.eqb_refl. destruct (watches c w) as [y|] eqn:Y.
    - exists y. repeat split; [apply D; reflexivity|discriminate|congruence].
    - eexists. repeat split. discriminate. }
  destruct X as (x & X & XD & XN & XS).
  assert (S0 : searches c0 h = Some s) by (unfold c0; rewrite store_watch_searches; exact S).
  destruct (link_spec c0 w h x s X S0) as (c1 & L & K1 & K2 & K3 & K4 & K5 & K6).
  exists c1. split; [exact L|].
  assert (OW : forall w', w' <> w -> watches c0 w' = watches c w').
  { intros w' NE. unfold c0. rewrite store_watch_watches. destruct (w =? w') eqn:Q; [apply Nat.eqb_eq in Q; congruence|reflexivity]. }
  constructor.
  - rewrite K1. apply store_watch_known.
  - rewrite K2. apply store_watch_obs.
  - rewrite K3. apply store_watch_log.
  - intros h' N. rewrite K5. destruct (h =? h') eqn:Q; [apply Nat.eqb_eq in Q; congruence|].
    unfold c0. rewrite store_watch_searches. exact N.
  - intros h' s' S'. rewrite K5. destruct (h =? h') eqn:Q.
    + apply Nat.eqb_eq in Q. subst h'. assert (s' = s) by congruence. subst s'. eexists. split; [reflexivity|]. cbn.
      do 3 (split; [reflexivity|]). split; [apply NoDup_add|]. intros w'. rewrite In_add. split.
      * intros [->|A]; [right; exists d; auto|auto].
      * intros [A|(d' & -> & _)]; auto.
    + apply Nat.eqb_neq in Q. exists s'. unfold c0. rewrite store_watch_searches. split; [exact S'|].
      do 3 (split; [reflexivity|]). split; [auto|]. intros w'. split; [auto|]. intros [A|(d' & _ & _ & A)]; [exact A|congruence].
  - intros w' x' X'. destruct (Nat.eq_dec w w') as [<-|NE].
    + assert (x = x') by (apply XS; exact X'). subst x'. rewrite K6, Nat.eqb_refl. eexists. split; [reflexivity|]. cbn.
      split; [reflexivity|]. intros h'. rewrite In_add. split.
      * intros [->|A]; [right; exists d; auto|auto].
      * intros [A|(d' & _ & _ & ->)]; auto.
    + rewrite K6, (proj2 (Nat.eqb_neq w w') NE), OW by auto. exists x'. split; [exact X'|]. split; [reflexivity|].
      intros h'. split; [auto|]. intros [A|(d' & A & _)]; [exact A|congruence].
  - intros w' x' N E. rewrite K6 in E. destruct (w =? w') eqn:Q.
    + apply Nat.eqb_eq in Q. subst w'. injection E as <-. cbn. exists d. split; [exact XD|]. split; [exists h; auto|].
      intros h'. rewrite (XN N). cbn. split; [intros [<-|[]]; exists d; auto|]. intros (d' & _ & _ & ->). auto.
    + apply Nat.eqb_neq in Q. rewrite OW in E by auto. congruence.
  - intros w' d' h' (-> & _ & _). rewrite K6, Nat.eqb_refl. eexists. reflexivity.
  - intros M. refine (mok_ext c0 c1 K4 _ _ (store_watch_mok c w d D M)).
    + intros w' x' X'. rewrite K6. destruct (w =? w') eqn:Q; [|exists x'; auto]. apply Nat.eqb_eq in Q. subst w'.
      assert (x' = x) by congruence. subst x'. eexists. split; [reflexivity|reflexivity].
    + intros w' x'. rewrite K6. destruct (w =? w') eqn:Q; [|intros X'; exists x'; auto]. apply Nat.eqb_eq in Q. subst w'.
      intros E'. injection E' as <-. exists x. auto.
Qed.

Lemma grown_trans c N1 c1 N2 c2 (N : wd -> dir -> handle -> Prop) :
  grown c N1 c1 -> grown c1 N2 c2 ->
  (forall w d h, N w d h <-> N1 w d h \/ N2 w d h) ->
  (forall w d d' h h', N w d h -> N w d' h' -> d = d') ->
  grown c N c2.
Proof.
  intros A B E F. constructor.
  - rewrite (g_known _ _ _ B). apply (g_known _ _ _ A).
  - rewrite (g_obs _ _ _ B). apply (g_obs _ _ _ A).
  - rewrite (g_log _ _ _ B). apply (g_log _ _ _ A).
  - intros h H. apply (g_none _ _ _ B), (g_none _ _ _ A), H.
  - intros h s S. destruct (g_some _ _ _ A h s S) as (s1 & S1 & Z1 & Z2 & Z3 & Z4 & Z5).
    destruct (g_some _ _ _ B h s1 S1) as (s2 & S2 & Y1 & Y2 & Y3 & Y4 & Y5).
    exists s2. split; [exact S2|]. split; [congruence|]. split; [congruence|]. split; [congruence|]. split; [auto|].
    intros w. rewrite Y5, Z5. split.
    + intros [[X|(d & X)]|(d & X)]; [auto|right; exists d; apply E; auto|right; exists d; apply E; auto].
    + intros [X|(d & X)]; [auto|]. apply E in X. destruct X; [left; right; exists d; assumption|right; exists d; assumption].
  - intros w x X. destruct (g_kept _ _ _ A w x X) as (x1 & X1 & Z1 & Z2).
    destruct (g_kept _ _ _ B w x1 X1) as (x2 & X2 & Y1 & Y2). exists x2. split; [exact X2|]. split; [congruence|].
    intros h. rewrite Y2, Z2. split.
    + intros [[P|(d & P)]|(d & P)]; [auto|right; exists d; apply E; auto|right; exists d; apply E; auto].
    + intros [P|(d & P)]; [auto|]. apply E in P. destruct P; [left; right; exists d; assumption|right; exists d; assumption].
  - intros w x2 X X2. destruct (watches c1 w) as [x1|] eqn:X1.
    + destruct (g_new _ _ _ A w x1 X X1) as (d & D1 & (h & H) & D3).
      destruct (g_kept _ _ _ B w x1 X1) as (x2' & X2' & Y1 & Y2). assert (x2' = x2) by congruence. subst x2'.
      exists d. split; [congruence|]. split; [exists h; apply E; auto|]. intros h'. rewrite Y2, D3. split.
      * intros [(d' & P)|(d' & P)]; exists d'; apply E; auto.
      * intros (d' & P). apply E in P. destruct P; [left; exists d'; assumption|right; exists d'; assumption].
    + destruct (g_new _ _ _ B w x2 X1 X2) as (d & D1 & (h & H) & D3). exists d. split; [exact D1|].
      split; [exists h; apply E; auto|]. intros h'. rewrite D3. split.
      * intros (d' & P). exists d'. apply E. auto.
      * intros (d' & P). apply E in P. destruct P as [P|P]; [|exists d'; exact P]. exfalso.
        destruct (g_there _ _ _ A _ _ _ P) as (y & Y). congruence.
  - intros w d h P. apply E in P. destruct P as [P|P].
    + destruct (g_there _ _ _ A _ _ _ P) as (y & Y). destruct (g_kept _ _ _ B _ _ Y) as (z & Z & _). exists z. exact Z.
    + apply (g_there _ _ _ B _ _ _ P).
  - intros M. apply (g_mok _ _ _ B), (g_mok _ _ _ A), M.
Qed.

Lemma store_links_grown h ws : forall c s,
  searches c h = Some s ->
  (forall w d x, In (w, d) ws -> watches c w = Some x -> w_dir x = d) ->
  (forall w d d', In (w, d) ws -> In (w, d') ws -> d = d') ->
  exists c', store_links c h ws = Some c' /\ grown c (fun w d h' => h' = h /\ In (w, d) ws) c'.
Proof.
  induction ws as [|[w d] r IH]; intros c s S D F.
  - exists c. split; [reflexivity|]. constructor; try reflexivity; auto.
    + intros h' s' S'. exists s'. repeat split; auto. intros [A|(d & _ & [])]. exact A.
    + intros w' x' X'. exists x'. repeat split; auto. intros [A|(d & _ & [])]. exact A.
    + intros w' x' A B. congruence.
    + intros w' d h' (_ & []).
  - destruct (store_link_grown c w d h s S) as (c1 & E1 & G1).
    { intros x X. apply (D w d x); [left; reflexivity|exact X]. }
    destruct (g_some _ _ _ G1 h s S) as (s1 & S1 & _).
    destruct (IH c1 s1 S1) as (c2 & E2 & G2).
    { intros w' d' x I X. destruct (watches c w') as [y|] eqn:Y.
      - destruct (g_kept _ _ _ G1 _ _ Y) as (y' & Y1 & Y2 & _). assert (y' = x) by congruence. subst y'. rewrite Y2.
        apply (D w' d' y); [right; exact I|exact Y].
      - destruct (g_new _ _ _ G1 _ _ Y X) as (d1 & D1 & (h1 & -> & -> & _) & _). rewrite D1.
        apply (F w d d'); [left; reflexivity|right; exact I]. }
    { intros w' d1 d2 A B. apply (F w' d1 d2); right; assumption. }
    exists c2. split; [cbn [store_links]; rewrite E1; exact E2|].
    refine (grown_trans _ _ _ _ _ _ G1 G2 _ _).
    + intros w' d' h'. cbn [In]. split.
      * intros (-> & [A|A]); [injection A as -> ->; auto|auto].
      * intros [(-> & -> & ->)|(-> & A)]; auto.
    + intros w' d1 d2 h1 h2 (_ & A) (_ & B). apply (F w' d1 d2 A B).
Qed.

(** * Taking a search away *)

Lemma erase_watch_frame c w d :
  searches (erase_watch c w d) = searches c /\ known (erase_watch c w d) = known c /\
  obsolete (erase_watch c w d) = obsolete c /\ log (erase_watch c w d) = log c /\
  forall w', watches (erase_watch c w d) w' = if w =? w' then None else watches c w'.
Proof.
  unfold erase_watch. destruct d as [i|]; cbn.
  - destruct (watched c None) as [[m ch]|]; cbn; repeat split.
  - destruct (watched c None) as [[m ch]|]; cbn; repeat split.
Qed.

Lemma erase_watch_watched c w d d' :
  watched (erase_watch c w d) d' =
  match d, d' with
  | Some i, Some j => if i =? j then None else watched c d'
  | Some _, None => match watched c None with Some (m, ch) => Some (m, del w ch) | None => None end
  | None, Some _ => watched c d'
  | None, None => match watched c None with Some (_, ch) => Some (None, ch) | None => None end
  end.
Proof.
  unfold erase_watch. destruct d as [i|]; cbn.
  - destruct (watched c None) as [[m ch]|] eqn:E; cbn; destruct d' as [j|]; cbn; try reflexivity. exact E.
  - destruct (watched c None) as [[m ch]|] eqn:E; cbn; destruct d' as [j|]; cbn; try reflexivity. exact E.
Qed.

Lemma erase_watch_mok c w x :
  watches c w = Some x -> (forall w' x', watches c w' = Some x' -> w_dir x' = w_dir x -> w' = w) ->
  Mok c -> Mok (erase_watch c w (w_dir x)).
Proof.
  intros X U M. destruct (erase_watch_frame c w (w_dir x)) as (_ & _ & _ & _ & W).
  assert (KW : forall w' x', watches c w' = Some x' -> w' <> w -> watches (erase_watch c w (w_dir x)) w' = Some x').
  { intros w' x' E N. rewrite W, (proj2 (Nat.eqb_neq w w')); [exact E|]. congruence. }
  assert (OW : forall w' x', watches (erase_watch c w (w_dir x)) w' = Some x' -> w' <> w /\ watches c w' = Some x').
  { intros w' x' E. rewrite W in E. destruct (w =? w') eqn:Q; [discriminate|]. apply Nat.eqb_neq in Q. auto. }
  constructor.
  - intros d w' ch E. rewrite erase_watch_watched in E.
    assert (Z : exists ch0, watched c d = Some (Some w', ch0) /\ d <> w_dir x).
    { destruct (w_dir x) as [i|] eqn:D, d as [j|].
      - destruct (i =? j) eqn:Q; [discriminate|]. apply Nat.eqb_neq in Q. exists ch. split; [exact E|congruence].
      - destruct (watched c None) as [[m ch0]|]; [|discriminate]. injection E as -> _. exists ch0. split; [reflexivity|discriminate].
      - exists ch. split; [exact E|discriminate].
      - destruct (watched c None) as [[m ch0]|]; discriminate. }
    destruct Z as (ch0 & Z & ND). destruct (m_main _ M _ _ _ Z) as (y & Y1 & Y2). exists y. split; [|exact Y2].
    apply KW; [exact Y1|]. intros ->. congruence.
  - intros m ch w' E. rewrite erase_watch_watched in E.
    assert (Z : (exists y i, watches (erase_watch c w (w_dir x)) w' = Some y /\ w_dir y = Some i) <->
                w' <> w /\ exists y i, watches c w' = Some y /\ w_dir y = Some i).
    { split.
      - intros (y & i & Y1 & Y2). destruct (OW _ _ Y1) as [N O]. split; [exact N|]. exists y, i. auto.
      - intros (N & y & i & Y1 & Y2). exists y, i. auto. }
    rewrite Z. destruct (w_dir x) as [i|] eqn:D.
    + destruct (watched c None) as [[m' ch']|] eqn:T; [|discriminate]. injection E as <- <-.
      rewrite In_del, (m_kids _ M _ _ w' T). tauto.
    + destruct (watched c None) as [[m' ch']|] eqn:T; [|discriminate]. injection E as <- <-.
      rewrite (m_kids _ M _ _ w' T). split; [|tauto]. intros (y & i & Y1 & Y2). split; [|exists y, i; auto]. intros ->. congruence.
  - intros w' y i Y1 Y2. destruct (OW _ _ Y1) as [N O]. pose proof (m_some _ M _ _ _ O Y2) as T. rewrite erase_watch_watched.
    destruct (w_dir x); destruct (watched c None) as [[m ch]|]; congruence.
  - intros i m ch E. rewrite erase_watch_watched in E. destruct (w_dir x) as [j|].
    + destruct (j =? i); [discriminate|]. apply (m_leaf _ M _ _ _ E).
    + apply (m_leaf _ M _ _ _ E).
Qed.

Lemma transfer_watches_spec h ws : forall k c s,
  NoDup ws -> searches c h = Some s -> (forall w, In w ws -> In w (s_wds s)) ->
  (forall w, In w ws -> exists x, watches c w = Some x /\ In h (w_hs x)) ->
  (forall w x, watches c w = Some x -> kwd k (w_dir x) = Some w) -> Mok c ->
  (forall d d' w, kwd k d = Some w -> kwd k d' = Some w -> d = d') ->
  exists k' c', transfer_watches k c h ws = Some (k', c') /\
    (exists s', searches c' h = Some s') /\
    (forall h', h' <> h -> searches c' h' = searches c h') /\
    obsolete c' = obsolete c /\ log c' = log c /\
    (forall w, ~ In w ws -> watches c' w = watches c w) /\
    (forall w x, In w ws -> watches c w = Some x ->
       del h (w_hs x) = [] /\ watches c' w = None \/
       del h (w_hs x) <> [] /\ watches c' w = Some (mkW (w_dir x) (del h (w_hs x)))) /\
    (forall p, In p (known c') <-> In p (known c) /\
       ~ exists w x, In w ws /\ watches c w = Some x /\ w_dir x = Some (fst p) /\ watches c' w = None) /\
    (forall d w, kwd k' d = Some w <-> kwd k d = Some w /\ ~ (In w ws /\ watches c' w = None)) /\
    dirs k' = dirs k /\ files k' = files k /\ nxt k' = nxt k /\
    (exists ign, queue k' = queue k ++ ign /\ forall w e, In (w, e) ign -> e = EIgnored /\ In w ws) /\
    Mok c'.
Proof.
  induction ws as [|w r IH]; intros k c s ND S SW L C1 M J.
  - exists k, c. split; [reflexivity|]. split; [exists s; exact S|].
    split; [auto|]. split; [reflexivity|]. split; [reflexivity|]. split; [auto|]. split; [intros w x []|].
    split; [intros p; split; [intros H; split; [exact H|intros (w & x & [] & _)]|tauto]|].
    split; [intros d w; split; [intros H; split; [exact H|intros ([] & _)]|tauto]|].
    split; [reflexivity|]. split; [reflexivity|]. split; [reflexivity|].
    split; [exists []; split; [rewrite app_nil_r; reflexivity|intros w e []]|exact M].
  - apply NoDup_cons_iff in ND. destruct ND as [NI ND].
    destruct (L w (or_introl eq_refl)) as (x & X & HX). cbn [transfer_watches]. rewrite X.
    assert (U : unlink c w h = Some (set_search (set_watch c w (Some (mkW (w_dir x) (del h (w_hs x))))) h
                  (Some (mkS (s_dir s) (s_q s) (del w (s_wds s)) (s_prev s))))).
    { unfold unlink. rewrite X, S, (proj2 (mem_In _ _) HX), (proj2 (mem_In _ _) (SW w (or_introl eq_refl))). reflexivity. }
    rewrite U.
    set (c1 := set_search (set_watch c w (Some (mkW (w_dir x) (del h (w_hs x))))) h
                  (Some (mkS (s_dir s) (s_q s) (del w (s_wds s)) (s_prev s)))).
    assert (W1 : forall w', watches c1 w' = if w =? w' then Some (mkW (w_dir x) (del h (w_hs x))) else watches c w') by reflexivity.
    assert (S1 : searches c1 h = Some (mkS (s_dir s) (s_q s) (del w (s_wds s)) (s_prev s))) by (cbn; rewrite Nat.eqb_refl; reflexivity).
    assert (S1' : forall h', h' <> h -> searches c1 h' = searches c h').
    { intros h' N. cbn. rewrite (proj2 (Nat.eqb_neq h h')) by congruence. reflexivity. }
    assert (M1 : Mok c1).
    { refine (mok_ext c c1 eq_refl _ _ M); intros w' x'; rewrite W1.
      - intros X'. destruct (w =? w') eqn:Q; [|exists x'; auto]. apply Nat.eqb_eq in Q. subst w'.
        assert (x' = x) by congruence. subst x'. eexists. split; reflexivity.
      - destruct (w =? w') eqn:Q; [|intros X'; exists x'; auto]. apply Nat.eqb_eq in Q. subst w'. intros E. injection E as <-.
        exists x. auto. }
    assert (C11 : forall w' x', watches c1 w' = Some x' -> kwd k (w_dir x') = Some w').
    { intros w' x'. rewrite W1. destruct (w =? w') eqn:Q; [|apply C1]. apply Nat.eqb_eq in Q. subst w'.
      intros E. injection E as <-. cbn. apply C1. exact X. }
    rewrite W1, Nat.eqb_refl. destruct (del h (w_hs x)) as [|h0 hr] eqn:DE.
    + (* the watch goes *)
      set (d := w_dir x) in *. set (c2 := match d with
                            | Some i => set_known c1 (remove (i, false) (remove (i, true) (known c1)))
                            | None => c1
                            end).
      assert (F2 : searches c2 = searches c1 /\ watches c2 = watches c1 /\ watched c2 = watched c1 /\
                   obsolete c2 = obsolete c1 /\ log c2 = log c1 /\
                   forall p, In p (known c2) <-> In p (known c) /\ d <> Some (fst p)).
      { unfold c2. destruct d as [i|]; cbn [set_known searches watches watched known obsolete log].
        - do 5 (split; [reflexivity|]). intros [j q]. rewrite !In_remove. cbn [fst]. split.
          + intros (A & B & C). split; [exact C|]. intros E. injection E as ->. destruct q; [apply B|apply A]; reflexivity.
          + intros (C & N). split; [|split]; [| |exact C]; intros E; injection E as -> _; apply N; reflexivity.
        - do 5 (split; [reflexivity|]). intros p. split; [|tauto]. intros A. split; [exact A|discriminate]. }
      destruct F2 as (F21 & F22 & F23 & F24 & F25 & F26).
      set (c3 := erase_watch c2 w d). destruct (erase_watch_frame c2 w d) as (E1 & E2 & E3 & E4 & E5).
      fold c3 in E1, E2, E3, E4, E5.
      assert (W3 : forall w', watches c3 w' = if w =? w' then None else watches c w').
      { intros w'. rewrite E5, F22, W1. destruct (w =? w'); reflexivity. }
      assert (XC2 : watches c2 w = Some (mkW d [])) by (rewrite F22, W1, Nat.eqb_refl; reflexivity).
      assert (M3 : Mok c3).
      { refine (erase_watch_mok c2 w (mkW d []) XC2 _ _).
        - intros w' x' X' D'. rewrite F22 in X'. pose proof (C11 _ _ X') as Z1. cbn in D'. rewrite D' in Z1.
          pose proof (C1 _ _ X) as Z2. fold d in Z2. congruence.
        - refine (mok_ext c1 c2 F23 _ _ M1); rewrite F22; intros w' x' X'; exists x'; auto. }
      destruct (IH (remove_watch k d w) c3 (mkS (s_dir s) (s_q s) (del w (s_wds s)) (s_prev s)) ND)
        as (k' & c' & R1 & R2 & R3 & R4 & R5 & R6 & R7 & R8 & R9 & R10 & R11 & R12 & R13 & R14).
      * rewrite E1, F21. exact S1.
      * intros w' H. cbn. apply In_del. split; [|apply SW; right; exact H]. intros ->. contradiction.
      * intros w' H. rewrite W3. assert (N : w <> w') by (intros ->; contradiction).
        rewrite (proj2 (Nat.eqb_neq w w') N). apply L. right. exact H.
      * intros w' x'. rewrite W3. destruct (w =? w') eqn:Q; [discriminate|]. apply Nat.eqb_neq in Q. intros X'. cbn.
        rewrite dir_eqb_neq; [apply C1; exact X'|]. intros E. apply Q. pose proof (C1 _ _ X') as Z1. rewrite <- E in Z1.
        pose proof (C1 _ _ X) as Z2. fold d in Z2. congruence.
      * exact M3.
      * intros d1 d2 w'. cbn. destruct (dir_eqb d d1); [discriminate|]. destruct (dir_eqb d d2); [discriminate|]. apply J.
      * assert (WN : watches c' w = None) by (rewrite R6 by exact NI; rewrite W3, Nat.eqb_refl; reflexivity).
        exists k', c'. split; [exact R1|]. split; [exact R2|].
        split; [intros h' N; rewrite R3 by exact N; rewrite E1, F21; apply S1'; exact N|].
        split; [rewrite R4, E3; exact F24|]. split; [rewrite R5, E4; exact F25|].
        split; [intros w' N; rewrite R6 by (intros Z; apply N; right; exact Z); rewrite W3;
                rewrite (proj2 (Nat.eqb_neq w w')); [reflexivity|intros Z; apply N; left; exact Z]|].
        split.
        { intros w' x' [<-|I] X'.
          - left. assert (x' = x) by congruence. subst x'. split; [exact DE|exact WN].
          - apply R7; [exact I|]. rewrite W3, (proj2 (Nat.eqb_neq w w')); [exact X'|]. intros ->. contradiction. }
        split.
        { intros p. rewrite R8, E2, F26. split.
          - intros ((A & N) & B). split; [exact A|]. intros (w' & x' & [<-|I] & X' & D' & Z).
            + assert (x' = x) by congruence. subst x'. apply N. exact D'.
            + apply B. exists w', x'. split; [exact I|]. split; [|auto].
              rewrite W3, (proj2 (Nat.eqb_neq w w')); [exact X'|]. intros ->. contradiction.
          - intros (A & B). split; [split; [exact A|]|].
            + intros D'. apply B. exists w, x. split; [left; reflexivity|]. auto.
            + intros (w' & x' & I & X' & D' & Z). apply B. exists w', x'. split; [right; exact I|]. split; [|auto].
              rewrite W3 in X'. destruct (w =? w'); [discriminate|exact X']. }
        split.
        { intros d' w'. rewrite R9. cbn. destruct (dir_eqb d d') eqn:Q.
          - apply dir_eqb_eq in Q. subst d'. split; [intros [A _]; discriminate|]. intros [A B]. exfalso. apply B.
            assert (w' = w) by (pose proof (C1 _ _ X) as Z; fold d in Z; congruence). subst w'. auto.
          - split.
            + intros [A B]. split; [exact A|]. intros [[<-|I] Z]; [|apply B; auto].
              (* w watches d only *)
              assert (dir_eqb d d' = true); [|congruence]. apply dir_eqb_eq.
              apply (J d d' w); [apply C1; exact X|exact A].
            + intros [A B]. split; [exact A|]. intros [I Z]. apply B. auto. }
        split; [exact R10|]. split; [exact R11|]. split; [exact R12|].
        split; [|exact R14]. destruct R13 as (ign & Q1 & Q2). exists ((w, EIgnored) :: ign). split.
        { rewrite Q1. cbn. rewrite <- app_assoc. reflexivity. }
        { intros w' e [E|I]; [injection E as <- <-; split; [reflexivity|left; reflexivity]|]. destruct (Q2 _ _ I). split; [assumption|right; assumption]. }
    + (* the watch stays *)
      cbn [w_dir]. destruct (IH k c1 (mkS (s_dir s) (s_q s) (del w (s_wds s)) (s_prev s)) ND)
        as (k' & c' & R1 & R2 & R3 & R4 & R5 & R6 & R7 & R8 & R9 & R10 & R11 & R12 & R13 & R14).
      * exact S1.
      * intros w' H. cbn. apply In_del. split; [|apply SW; right; exact H]. intros ->. contradiction.
      * intros w' H. rewrite W1. assert (N : w <> w') by (intros ->; contradiction).
        rewrite (proj2 (Nat.eqb_neq w w') N). apply L. right. exact H.
      * exact C11.
      * exact M1.
      * exact J.
      * assert (WN : watches c' w = Some (mkW (w_dir x) (h0 :: hr))) by (rewrite R6 by exact NI; rewrite W1, Nat.eqb_refl; reflexivity).
        exists k', c'. split; [exact R1|]. split; [exact R2|].
        split; [intros h' N; rewrite R3 by exact N; apply S1'; exact N|].
        split; [exact R4|]. split; [exact R5|].
        split; [intros w' N; rewrite R6 by (intros Z; apply N; right; exact Z); rewrite W1;
                rewrite (proj2 (Nat.eqb_neq w w')); [reflexivity|intros Z; apply N; left; exact Z]|].
        split.
        { intros w' x' [<-|I] X'.
          - right. assert (x' = x) by congruence. subst x'. rewrite DE. split; [discriminate|exact WN].
          - apply R7; [exact I|]. rewrite W1, (proj2 (Nat.eqb_neq w w')); [exact X'|]. intros ->. contradiction. }
        split.
        { intros p. rewrite R8. split.
          - intros (A & B). split; [exact A|]. intros (w' & x' & [<-|I] & X' & D' & Z); [congruence|].
            apply B. exists w', x'. split; [exact I|]. split; [|auto].
            rewrite W1, (proj2 (Nat.eqb_neq w w')); [exact X'|]. intros ->. contradiction.
          - intros (A & B). split; [exact A|]. intros (w' & x' & I & X' & D' & Z). apply B. exists w', x'.
            assert (N : w <> w') by (intros ->; contradiction). rewrite W1, (proj2 (Nat.eqb_neq w w') N) in X'.
            split; [right; exact I|]. auto. }
        split.
        { intros d' w'. rewrite R9. split.
          - intros [A B]. split; [exact A|]. intros [[<-|I] Z]; [congruence|apply B; auto].
          - intros [A B]. split; [exact A|]. intros [I Z]. apply B. split; [right; exact I|exact Z]. }
        split; [exact R10|]. split; [exact R11|]. split; [exact R12|].
        split; [|exact R14]. destruct R13 as (ign & Q1 & Q2). exists ign. split; [exact Q1|].
        intros w' e I. destruct (Q2 _ _ I). split; [assumption|right; assumption].
Qed.

Definition fnd (F : option crawl) (w : wd) (i : inst) : Prop := exists x, F = Some x /\ c_who x = Found w i.

Record Wf (P : list (wd * ev)) (k : kernel) (c : client) (F : option crawl) : Prop := {
  wf_inj : forall d d' w, kwd k d = Some w -> kwd k d' = Some w -> d = d';
  wf_lt : forall d w, kwd k d = Some w -> w < nxt k;
  wf_pend : forall w e, In (w, e) P -> w < nxt k;
  wf_files : forall i q, In (i, q) (files k) -> In i (dirs k);
  wf_dirs : forall i w, kwd k (Some i) = Some w -> In i (dirs k);
  wf_flag : forall w q, In (w, ECreate q) P \/ In (w, EDelete q) P -> kwd k None <> Some w;
  wf_mkdir : forall w i, In (w, EMkdir i) P -> In i (dirs k);
  wf_kwd : forall w x, watches c w = Some x -> kwd k (w_dir x) = Some w;
  wf_known : forall i q, In (i, q) (known c) -> exists w x, watches c w = Some x /\ w_dir x = Some i;
  wf_wh : forall w x h, watches c w = Some x -> In h (w_hs x) -> exists s, searches c h = Some s /\ In w (s_wds s);
  wf_hw : forall h s w, searches c h = Some s -> In w (s_wds s) -> exists x, watches c w = Some x /\ In h (w_hs x);
  wf_nodup : forall h s, searches c h = Some s -> NoDup (s_wds s);
  wf_main : forall h s, searches c h = Some s -> exists w x, watches c w = Some x /\ w_dir x = s_dir s /\ In h (w_hs x);
  wf_some : forall w x, watches c w = Some x -> exists h, In h (w_hs x);
  wf_kids : forall w x h i, watches c w = Some x -> w_dir x = None -> In h (w_hs x) -> In i (dirs k) ->
              (exists w' x', watches c w' = Some x' /\ w_dir x' = Some i /\ In h (w_hs x')) \/
              In (w, EMkdir i) P \/ fnd F w i;
  wf_mok : Mok c;
}.

Record shrunk (H : handle -> Prop) (k : kernel) (c : client) (k' : kernel) (c' : client) (ign : list (wd * ev)) : Prop := {
  sh_gone : forall h, H h -> searches c' h = None;
  sh_stay : forall h, ~ H h -> searches c' h = searches c h;
  sh_obs : obsolete c' = obsolete c;
  sh_log : log c' = log c;
  sh_old : forall w x', watches c' w = Some x' -> exists x, watches c w = Some x /\ w_dir x' = w_dir x /\
             forall h, In h (w_hs x') <-> ~ H h /\ In h (w_hs x);
  sh_keep : forall w x h, watches c w = Some x -> In h (w_hs x) -> ~ H h -> exists x', watches c' w = Some x' /\ w_dir x' = w_dir x /\ In h (w_hs x');
  sh_known : forall p, In p (known c') <-> In p (known c) /\ exists w x', watches c' w = Some x' /\ w_dir x' = Some (fst p);
  sh_kwd : forall d w, kwd k' d = Some w -> kwd k d = Some w;
  sh_dirs : dirs k' = dirs k;
  sh_files : files k' = files k;
  sh_nxt : nxt k' = nxt k;
  sh_queue : queue k' = queue k ++ ign;
  sh_ign : forall w e, In (w, e) ign -> e = EIgnored /\ w < nxt k;
}.

Lemma transfer_one_spec P k c h :
  Wf P k c None ->
  exists k' c' ign, transfer_one k c h = Some (k', c') /\ shrunk (fun h' => h' = h) k c k' c' ign /\ Wf (P ++ ign) k' c' None.
Proof.
  intros W. unfold transfer_one. destruct (searches c h) as [s|] eqn:S.
  2:{ exists k, c, []. split; [reflexivity|]. rewrite app_nil_r. split; [|exact W].
      assert (NH : forall w x, watches c w = Some x -> ~ In h (w_hs x)).
      { intros w x X I. destruct (wf_wh _ _ _ _ W _ _ _ X I) as (s & Z & _). congruence. }
      constructor; try reflexivity; auto.
      - intros h' ->. exact S.
      - intros w x X. exists x. split; [exact X|]. split; [reflexivity|]. intros h'. split; [|tauto]. intros I. split; [|exact I].
        intros ->. apply (NH w x X I).
      - intros w x h' X I _. exists x. auto.
      - intros [i q]. split; [|tauto]. intros K. split; [exact K|]. apply (wf_known _ _ _ _ W i q K).
      - rewrite app_nil_r. reflexivity.
      - intros w e []. }
  destruct (transfer_watches_spec h (s_wds s) k c s) as
    (k' & c1 & T & (s1 & S1) & OS & OB & LG & WO & WI & KN & KW & DI & FI & NX & (ign & QU & IG) & MO).
  { apply (wf_nodup _ _ _ _ W _ _ S). }
  { exact S. }
  { auto. }
  { intros w I. apply (wf_hw _ _ _ _ W _ _ _ S I). }
  { apply (wf_kwd _ _ _ _ W). }
  { apply (wf_mok _ _ _ _ W). }
  { apply (wf_inj _ _ _ _ W). }
  rewrite T. set (c' := set_search c1 h None). exists k', c', ign. split; [reflexivity|].
  assert (OLD : forall w x', watches c' w = Some x' -> exists x, watches c w = Some x /\ w_dir x' = w_dir x /\
             forall h', In h' (w_hs x') <-> h' <> h /\ In h' (w_hs x)).
  { intros w x' X'. cbn in X'. destruct (in_dec Nat.eq_dec w (s_wds s)) as [I|N].
    - destruct (wf_hw _ _ _ _ W _ _ _ S I) as (x & X & _). destruct (WI w x I X) as [[_ Z]|[_ Z]]; [congruence|].
      rewrite Z in X'. injection X' as <-. exists x. split; [exact X|]. split; [reflexivity|]. intros h'. cbn. apply In_del.
    - rewrite WO in X' by exact N. exists x'. split; [exact X'|]. split; [reflexivity|]. intros h'. split; [|tauto].
      intros I. split; [|exact I]. intros ->. destruct (wf_wh _ _ _ _ W _ _ _ X' I) as (s' & Z1 & Z2).
      assert (s' = s) by congruence. subst s'. contradiction. }
  assert (KEEP : forall w x h', watches c w = Some x -> In h' (w_hs x) -> h' <> h ->
                   exists x', watches c' w = Some x' /\ w_dir x' = w_dir x /\ In h' (w_hs x')).
  { intros w x h' X I N. cbn. destruct (in_dec Nat.eq_dec w (s_wds s)) as [IN|NI].
    - destruct (WI w x IN X) as [[Z _]|[_ Z]].
      + exfalso. assert (Q : In h' (del h (w_hs x))) by (apply In_del; auto). rewrite Z in Q. exact Q.
      + exists (mkW (w_dir x) (del h (w_hs x))). split; [exact Z|]. split; [reflexivity|]. cbn. apply In_del. auto.
    - exists x. rewrite WO by exact NI. auto. }
  assert (KNOW : forall p, In p (known c') <-> In p (known c) /\ exists w x', watches c' w = Some x' /\ w_dir x' = Some (fst p)).
  { intros [i q]. cbn [fst]. change (known c') with (known c1). rewrite KN. cbn [fst]. split.
    - intros (A & B). split; [exact A|]. destruct (wf_known _ _ _ _ W i q A) as (w & x & X & D).
      destruct (watches c' w) as [x'|] eqn:X'.
      + destruct (OLD w x' X') as (x2 & X2 & D2 & _). exists w, x'. split; [exact X'|]. congruence.
      + exfalso. apply B. exists w, x. split; [|auto]. destruct (in_dec Nat.eq_dec w (s_wds s)) as [I|N]; [exact I|].
        exfalso. cbn in X'. rewrite WO in X' by exact N. congruence.
    - intros (A & w & x' & X' & D'). split; [exact A|]. intros (w2 & x2 & I2 & X2 & D2 & Z).
      destruct (OLD w x' X') as (x & X & D & _).
      assert (w2 = w).
      { pose proof (wf_kwd _ _ _ _ W _ _ X2) as Z2. pose proof (wf_kwd _ _ _ _ W _ _ X) as Z1. congruence. }
      subst w2. cbn in X'. congruence. }
  assert (SHR : shrunk (fun h' => h' = h) k c k' c' ign).
  { constructor; try assumption.
    - intros h' ->. cbn. rewrite Nat.eqb_refl. reflexivity.
    - intros h' N. cbn. rewrite (proj2 (Nat.eqb_neq h h')) by congruence. apply OS. exact N.
    - intros d w Z. apply KW in Z. tauto.
    - intros w e I. destruct (IG w e I) as [Z1 Z2]. split; [exact Z1|].
      destruct (wf_hw _ _ _ _ W _ _ _ S Z2) as (x & X & _). apply (wf_lt _ _ _ _ W (w_dir x)). apply (wf_kwd _ _ _ _ W). exact X. }
  split; [exact SHR|].
  assert (IP : forall w e, In (w, e) (P ++ ign) -> e <> EIgnored -> In (w, e) P).
  { intros w e I N. apply in_app_or in I. destruct I as [I|I]; [exact I|]. destruct (IG _ _ I). congruence. }
  assert (SE : forall h' s', searches c' h' = Some s' -> h' <> h /\ searches c h' = Some s').
  { intros h' s' Z. destruct (Nat.eq_dec h' h) as [->|N].
    - rewrite (sh_gone _ _ _ _ _ _ SHR h eq_refl) in Z. discriminate.
    - rewrite (sh_stay _ _ _ _ _ _ SHR h' N) in Z. auto. }
  constructor.
  - intros d d' w A B. apply (wf_inj _ _ _ _ W d d' w); apply (sh_kwd _ _ _ _ _ _ SHR); assumption.
  - intros d w A. rewrite NX. apply (wf_lt _ _ _ _ W d). apply (sh_kwd _ _ _ _ _ _ SHR). exact A.
  - intros w e I. rewrite NX. apply in_app_or in I. destruct I as [I|I]; [apply (wf_pend _ _ _ _ W w e I)|].
    apply (sh_ign _ _ _ _ _ _ SHR w e I).
  - rewrite FI, DI. apply (wf_files _ _ _ _ W).
  - intros i w A. rewrite DI. apply (wf_dirs _ _ _ _ W i w). apply (sh_kwd _ _ _ _ _ _ SHR). exact A.
  - intros w q I A. apply (sh_kwd _ _ _ _ _ _ SHR) in A. refine (wf_flag _ _ _ _ W w q _ A).
    destruct I as [I|I]; [left|right]; apply (IP _ _ I); discriminate.
  - intros w i I. rewrite DI. apply (wf_mkdir _ _ _ _ W w i). apply (IP _ _ I). discriminate.
  - intros w x' X'. destruct (OLD w x' X') as (x & X & D & _). apply KW. split; [rewrite D; apply (wf_kwd _ _ _ _ W); exact X|].
    intros [_ Z]. cbn in X'. congruence.
  - intros i q K. apply KNOW in K. apply K.
  - intros w x' h' X' I. destruct (OLD w x' X') as (x & X & D & HS). apply HS in I. destruct I as [N I].
    destruct (wf_wh _ _ _ _ W _ _ _ X I) as (s' & Z1 & Z2). exists s'. split; [|exact Z2].
    rewrite (sh_stay _ _ _ _ _ _ SHR h' N). exact Z1.
  - intros h' s' w Z I. destruct (SE _ _ Z) as [N Z']. destruct (wf_hw _ _ _ _ W _ _ _ Z' I) as (x & X & HX).
    destruct (KEEP w x h' X HX N) as (x' & X' & _ & HX'). exists x'. auto.
  - intros h' s' Z. destruct (SE _ _ Z) as [N Z']. apply (wf_nodup _ _ _ _ W _ _ Z').
  - intros h' s' Z. destruct (SE _ _ Z) as [N Z']. destruct (wf_main _ _ _ _ W _ _ Z') as (w & x & X & D & HX).
    destruct (KEEP w x h' X HX N) as (x' & X' & D' & HX'). exists w, x'. split; [exact X'|]. split; [congruence|exact HX'].
  - intros w x' X'. cbn in X'. destruct (in_dec Nat.eq_dec w (s_wds s)) as [I|NI].
    + destruct (wf_hw _ _ _ _ W _ _ _ S I) as (x & X & _). destruct (WI w x I X) as [[_ Z]|[N Z]]; [congruence|].
      rewrite Z in X'. injection X' as <-. cbn. destruct (del h (w_hs x)) as [|h0 hr]; [congruence|]. exists h0. left. reflexivity.
    + rewrite WO in X' by exact NI. apply (wf_some _ _ _ _ W _ _ X').
  - intros w x' h' i X' D' I' DR. rewrite DI in DR. destruct (OLD w x' X') as (x & X & D & HS). apply HS in I'. destruct I' as [N I].
    destruct (wf_kids _ _ _ _ W w x h' i X) as [(w2 & x2 & A & B & C)|[A|A]]; [congruence|exact I|exact DR| | |].
    + left. destruct (KEEP w2 x2 h' A C N) as (x3 & X3 & D3 & H3). exists w2, x3. split; [exact X3|]. split; [congruence|exact H3].
    + right. left. apply in_or_app. left. exact A.
    + right. right. exact A.
  - refine (mok_ext c1 c' eq_refl _ _ MO); intros w x' X'; exists x'; auto.
Qed.

Lemma transfer_all_spec hs : forall P k c,
  Wf P k c None ->
  exists k' c' ign, transfer_all k c hs = Some (k', set_obsolete c' []) /\
    shrunk (fun h => In h hs) k c k' c' ign /\ Wf (P ++ ign) k' c' None.
Proof.
  induction hs as [|h r IH]; intros P k c W.
  - exists k, c, []. split; [reflexivity|]. rewrite app_nil_r. split; [|exact W].
    constructor; try reflexivity; auto.
    + intros h [].
    + intros w x X. exists x. split; [exact X|]. split; [reflexivity|]. intros h'. split; [|tauto]. intros I. split; [|exact I]. intros [].
    + intros w x h X I _. exists x. auto.
    + intros [i q]. split; [|tauto]. intros K. split; [exact K|]. apply (wf_known _ _ _ _ W i q K).
    + rewrite app_nil_r. reflexivity.
    + intros w e [].
  - destruct (transfer_one_spec P k c h W) as (k1 & c1 & ign1 & T1 & A & W1).
    destruct (IH (P ++ ign1) k1 c1 W1) as (k2 & c2 & ign2 & T2 & B & W2).
    exists k2, c2, (ign1 ++ ign2). split; [cbn [transfer_all]; rewrite T1; exact T2|].
    split; [|rewrite app_assoc; exact W2].
    constructor.
    + intros h' [<-|I]; [|apply (sh_gone _ _ _ _ _ _ B h' I)].
      destruct (in_dec Nat.eq_dec h r) as [I|N]; [apply (sh_gone _ _ _ _ _ _ B h I)|].
      rewrite (sh_stay _ _ _ _ _ _ B h N). apply (sh_gone _ _ _ _ _ _ A h eq_refl).
    + intros h' N. rewrite (sh_stay _ _ _ _ _ _ B) by (intros Z; apply N; right; exact Z).
      apply (sh_stay _ _ _ _ _ _ A). intros ->. apply N. left. reflexivity.
    + rewrite (sh_obs _ _ _ _ _ _ B). apply (sh_obs _ _ _ _ _ _ A).
    + rewrite (sh_log _ _ _ _ _ _ B). apply (sh_log _ _ _ _ _ _ A).
    + intros w x2 X2. destruct (sh_old _ _ _ _ _ _ B w x2 X2) as (x1 & X1 & D1 & H1).
      destruct (sh_old _ _ _ _ _ _ A w x1 X1) as (x & X & D & H). exists x. split; [exact X|]. split; [congruence|].
      intros h'. rewrite H1, H. cbn. intuition congruence.
    + intros w x h' X I N. destruct (sh_keep _ _ _ _ _ _ A w x h' X I) as (x1 & X1 & D1 & H1).
      { intros ->. apply N. left. reflexivity. }
      destruct (sh_keep _ _ _ _ _ _ B w x1 h' X1 H1) as (x2 & X2 & D2 & H2).
      { intros Z. apply N. right. exact Z. }
      exists x2. split; [exact X2|]. split; [congruence|exact H2].
    + intros p. rewrite (sh_known _ _ _ _ _ _ B), (sh_known _ _ _ _ _ _ A). split; [tauto|].
      intros (K & w & x2 & X2 & D2). split; [split; [exact K|]|exists w, x2; auto].
      destruct (sh_old _ _ _ _ _ _ B w x2 X2) as (x1 & X1 & D1 & _). exists w, x1. split; [exact X1|congruence].
    + intros d w Z. apply (sh_kwd _ _ _ _ _ _ A), (sh_kwd _ _ _ _ _ _ B), Z.
    + rewrite (sh_dirs _ _ _ _ _ _ B). apply (sh_dirs _ _ _ _ _ _ A).
    + rewrite (sh_files _ _ _ _ _ _ B). apply (sh_files _ _ _ _ _ _ A).
    + rewrite (sh_nxt _ _ _ _ _ _ B). apply (sh_nxt _ _ _ _ _ _ A).
    + rewrite (sh_queue _ _ _ _ _ _ B), (sh_queue _ _ _ _ _ _ A), app_assoc. reflexivity.
    + intros w e I. apply in_app_or in I. destruct I as [I|I]; [apply (sh_ign _ _ _ _ _ _ A w e I)|].
      rewrite <- (sh_nxt _ _ _ _ _ _ A). apply (sh_ign _ _ _ _ _ _ B w e I).
Qed.
