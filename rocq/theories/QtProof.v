(** Invariants of the timer of the QNX engine. *)
From Coq Require Import List Bool Arith NArith ZArith Lia Permutation Sorted.
From Verif Require Import QtModel QtSpec.
Import ListNotations.

Lemma run_app : forall ls1 ls2 s, run s (ls1 ++ ls2) = run (run s ls1) ls2.
Proof. intros. apply fold_left_app. Qed.

Lemma run_cons : forall l ls s, run s (l :: ls) = run (step s l) ls.
Proof. reflexivity. Qed.

Lemma invariant : forall (P : st -> Prop), (forall s l, P s -> P (step s l)) -> forall ls s, P s -> P (run s ls).
Proof. intros P H ls. induction ls as [|l r IH]; intros s Hs; [exact Hs|]. rewrite run_cons. apply IH. now apply H. Qed.

Lemma in_insert : forall e q x, In x (insert e q) <-> x = e \/ In x q.
Proof.
  intros e q x. induction q as [|d r IH]; cbn [insert].
  - cbn. intuition.
  - destruct (N.ltb (e_due e) (e_due d)); cbn [In]; [|rewrite IH]; intuition.
Qed.

Lemma perm_insert : forall e q, Permutation (insert e q) (e :: q).
Proof.
  intros e q. induction q as [|d r IH]; cbn [insert]; [reflexivity|].
  destruct (N.ltb (e_due e) (e_due d)); [reflexivity|]. rewrite IH. apply perm_swap.
Qed.

(** ** The queue is sorted and everything is accounted for. *)
Definition ids (s : st) : list nat := map e_id (queue s) ++ map (fun p => e_id (fst p)) (ran s) ++ map e_id (removed s).

Lemma sorted_insert : forall e q,
  (forall x, In x q -> e_id x < e_id e) -> StronglySorted before q -> StronglySorted before (insert e q).
Proof.
  intros e q Hid H. induction H as [|d r Hs IH Hf]; cbn [insert].
  - repeat constructor.
  - destruct (N.ltb_spec (e_due e) (e_due d)) as [L|L].
    + constructor; [constructor; assumption|]. constructor; [now left|].
      rewrite Forall_forall in *. intros x Hx. specialize (Hf x Hx). left. destruct Hf as [F|[F _]]; lia.
    + constructor; [apply IH; intros; apply Hid; now right|].
      rewrite Forall_forall in *. intros x Hx. apply in_insert in Hx. destruct Hx as [->|Hx]; [|auto].
      assert (e_id d < e_id e) by (apply Hid; now left). unfold before. destruct (N.eq_dec (e_due d) (e_due e)); [right|left]; [split; lia|lia].
Qed.

Lemma sorted_filter : forall f q, StronglySorted before q -> StronglySorted before (filter f q).
Proof.
  intros f q H. induction H as [|d r Hs IH Hf]; cbn [filter]; [constructor|].
  destruct (f d); [|exact IH]. constructor; [exact IH|]. rewrite Forall_forall in *. intros x Hx. apply filter_In in Hx. apply Hf. tauto.
Qed.

Lemma perm_filter : forall f (q : list entry), Permutation (filter (fun e => negb (f e)) q ++ filter f q) q.
Proof.
  intros f q. induction q as [|d r IH]; cbn [filter]; [reflexivity|].
  destruct (f d); cbn [negb app].
  - rewrite <- Permutation_middle. now constructor.
  - now constructor.
Qed.

Record base (s : st) : Prop := {
  b_sorted : StronglySorted before (queue s);
  b_ids : Permutation (ids s) (seq 0 (next s));
  b_ran : forall e t, In (e, t) (ran s) -> (e_due e <= t)%N;
  b_loop : forall now, thread s = TLoop now -> (now <= clock s)%N;
  b_clean : forall c t e, In (c, t) (ran s) -> e_kind c = CleanUp -> In e (queue s) -> e_owner e = e_owner c -> e_id c < e_id e;
  b_order : forall l2 l1 c t e t', ran s = l2 ++ (c, t) :: l1 -> e_kind c = CleanUp -> In (e, t') l2 -> e_owner e = e_owner c -> e_id c < e_id e;
  b_ret : forall i, In i (returned s) -> exists c t, In (c, t) (ran s) /\ e_id c = i /\ e_kind c = CleanUp;
  b_timer : forall w, timer s = Some w -> (clock s < w)%N;
  b_stop : stopped s = true -> thread s = TEnded;
  b_zero : forall e, In e (queue s) -> e_kind e = CleanUp -> e_due e = 0%N }.

Lemma base_init : forall t, base (init t).
Proof. intros t. split; cbn; try discriminate; try tauto; try constructor. intros l2 l1 c t0 e t' H. destruct l2; discriminate. Qed.

Lemma id_fresh : forall s, base s -> forall i, In i (ids s) -> i < next s.
Proof. intros s B i Hi. apply (Permutation_in _ (b_ids s B)) in Hi. apply in_seq in Hi. lia. Qed.

Lemma queue_ids : forall s e, In e (queue s) -> In (e_id e) (ids s).
Proof. intros. unfold ids. apply in_or_app. left. now apply in_map. Qed.
Lemma ran_ids : forall s e t, In (e, t) (ran s) -> In (e_id e) (ids s).
Proof. intros. unfold ids. apply in_or_app. right. apply in_or_app. left. now apply (in_map (fun p => e_id (fst p))) in H. Qed.
Lemma removed_ids : forall s e, In e (removed s) -> In (e_id e) (ids s).
Proof. intros. unfold ids. apply in_or_app. right. apply in_or_app. right. now apply in_map. Qed.

(** A registration. *)
Lemma base_reg : forall s ok due o k, base s -> stopped s = false -> (k = CleanUp -> due = 0%N) ->
  base (wake_up ok (set_next (S (next s)) (set_queue (insert (mkE (next s) due o k) (queue s)) s))).
Proof.
  intros s ok due o k B Hs Hk.
  assert (base (set_next (S (next s)) (set_queue (insert (mkE (next s) due o k) (queue s)) s))) as H.
  { pose proof B as B0. destruct B as [B1 B2 B3 B4 B5 B6 B7 B8 B9 B10]. split; cbn.
    - apply sorted_insert; [|assumption]. cbn. intros x Hx. apply id_fresh; [assumption|]. now apply queue_ids.
    - change (0 :: seq 1 (next s)) with (seq 0 (S (next s))). rewrite seq_S. cbn [plus]. rewrite <- Permutation_cons_append. unfold ids. cbn.
      rewrite perm_insert. cbn. constructor. exact B2.
    - exact B3.
    - exact B4.
    - intros c t e Hc Hkc He Ho. apply in_insert in He. destruct He as [->|He].
      + cbn. apply id_fresh; [assumption|]. eapply ran_ids; eauto.
      + eapply B5; eauto.
    - exact B6.
    - exact B7.
    - exact B8.
    - exact B9.
    - intros e He Hke. apply in_insert in He. destruct He as [->|He]; cbn in *; auto. }
  destruct ok; [|exact H]. destruct H as [B1 B2 B3 B4 B5 B6 B7 B8 B9 B10]. split; assumption.
Qed.

Lemma base_clean : forall s o, base s -> base (clean o s).
Proof.
  intros s o [B1 B2 B3 B4 B5 B6 B7 B8 B9 B10]. split; cbn; auto.
  - now apply sorted_filter.
  - rewrite <- B2. unfold ids. cbn. rewrite map_app.
    rewrite <- (perm_filter (owned o) (queue s)) at 3. rewrite map_app, <- !app_assoc.
    apply Permutation_app_head. rewrite !app_assoc. apply Permutation_app_tail. apply Permutation_app_comm.
  - intros c t e Hc Hk He Ho. apply filter_In in He. eapply B5; eauto. tauto.
  - intros e He Hk. apply filter_In in He. apply B10; tauto.
Qed.

Lemma base_thread : forall s t, base s -> (forall now, t = TLoop now -> (now <= clock s)%N) -> (stopped s = true -> t = TEnded) ->
  base (set_thread t s).
Proof. intros s t [B1 B2 B3 B4 B5 B6 B7 B8 B9 B10] H1 H2. split; cbn; auto. Qed.

Lemma base_to_loop : forall s, base s -> stopped s = false -> base (to_loop s).
Proof. intros s B H. unfold to_loop. apply base_thread; auto; [|congruence]. intros now. destruct (quit s); discriminate. Qed.

Lemma base_run_one : forall s now e q, base s -> thread s = TLoop now -> queue s = e :: q -> (e_due e <= now)%N ->
  base (set_logs ((e, clock s) :: ran s) (removed s) (returned s) (set_queue q s))
  \/ e_kind e = CleanUp.
Proof.
  intros s now e q B Ht Hq Hd. destruct (e_kind e) eqn:K; [left|now right].
  pose proof (b_loop s B now Ht) as Hn.
  destruct B as [B1 B2 B3 B4 B5 B6 B7 B8 B9 B10]. rewrite Hq in *. split; cbn; auto.
  - now inversion B1.
  - rewrite <- B2. unfold ids. cbn. rewrite Hq. cbn. now rewrite <- Permutation_middle.
  - intros x t [H|H]; [injection H; intros; subst; lia|eauto].
  - intros c t x [H|H] Hk Hx Ho; [injection H; intros; subst; congruence|]. apply (B5 c t x H Hk); [now right|auto].
  - intros l2 l1 c t x t' H Hk Hx Ho. destruct l2 as [|y l2]; cbn in *; [tauto|].
    injection H; intros Hl Hy. subst y. destruct Hx as [Hx|Hx].
    + injection Hx; intros; subst. apply (B5 c t x); [rewrite Hl; apply in_or_app; right; now left|exact Hk|now left|exact Ho].
    + eapply B6; eauto.
  - intros i Hi. destruct (B7 i Hi) as (c & t & A & B & C). exists c, t. auto.
  - intros x Hx. apply B10. now right.
Qed.

(** The entry of a CleanUpOwner runs. *)
Lemma base_run_clean : forall s now e q, base s -> thread s = TLoop now -> queue s = e :: q -> (e_due e <= now)%N ->
  e_kind e = CleanUp ->
  base (let s1 := set_logs ((e, clock s) :: ran s) (removed s) (returned s) (set_queue q s) in
        let s2 := clean (e_owner e) s1 in set_logs (ran s2) (removed s2) (e_id e :: returned s2) s2).
Proof.
  intros s now e q B Ht Hq Hd K.
  pose proof (b_loop s B now Ht) as Hn.
  destruct B as [B1 B2 B3 B4 B5 B6 B7 B8 B9 B10]. rewrite Hq in *. split; cbn; auto.
  - apply sorted_filter. now inversion B1.
  - rewrite <- B2. unfold ids. cbn. rewrite Hq. cbn. rewrite <- Permutation_middle. constructor.
    rewrite map_app. rewrite <- (perm_filter (owned (e_owner e)) q) at 3. rewrite map_app, <- !app_assoc.
    apply Permutation_app_head. rewrite !app_assoc. apply Permutation_app_tail. apply Permutation_app_comm.
  - intros x t [H|H]; [injection H; intros; subst; lia|eauto].
  - intros c t x [H|H] Hk Hx Ho; apply filter_In in Hx; destruct Hx as [Hx Hf].
    + injection H; intros; subst. unfold owned in Hf. rewrite Ho, Nat.eqb_refl in Hf. discriminate.
    + apply (B5 c t x H Hk); [now right|auto].
  - intros l2 l1 c t x t' H Hk Hx Ho. destruct l2 as [|y l2]; cbn in *; [tauto|].
    injection H; intros Hl Hy. subst y. destruct Hx as [Hx|Hx].
    + injection Hx; intros; subst. apply (B5 c t x); [rewrite Hl; apply in_or_app; right; now left|exact Hk|now left|exact Ho].
    + eapply B6; eauto.
  - intros i [Hi|Hi]; [exists e, (clock s); auto|]. destruct (B7 i Hi) as (c & t & A & B & C). exists c, t. auto.
  - intros x Hx. apply filter_In in Hx. apply B10. right. tauto.
Qed.

Lemma stopped_false : forall s, base s -> thread s <> TEnded -> stopped s = false.
Proof. intros s B H. destruct (stopped s) eqn:E; [|reflexivity]. elim H. now apply b_stop. Qed.

Lemma base_step : forall s l, base s -> base (step s l).
Proof.
  intros s l B. destruct l; cbn [step].
  - destruct (stopped s) eqn:E; [exact B|]. apply base_reg; auto. discriminate.
  - destruct (stopped s) eqn:E; [exact B|]. cbn [orb]. destruct (Nat.eqb owner 0); [exact B|]. apply base_reg; auto.
  - destruct (thread s); auto. destruct (Nat.eqb owner 0); auto. now apply base_clean.
  - unfold pass. destruct B as [B1 B2 B3 B4 B5 B6 B7 B8 B9 B10].
    assert (forall now, thread s = TLoop now -> (now <= clock s + d)%N) as C by (intros now H; specialize (B4 now H); lia).
    destruct (timer s) as [w|] eqn:E.
    + destruct (N.leb_spec w (clock s + d)) as [L|L]; split; cbn; auto; try discriminate.
      intros v Hv. rewrite E in Hv. injection Hv; intros; subst. exact L.
    + split; cbn; auto. rewrite E. discriminate.
  - destruct (thread s) eqn:E; auto. destruct (pulses s) as [|p]; auto.
    apply base_thread.
    + destruct B as [B1 B2 B3 B4 B5 B6 B7 B8 B9 B10]. split; auto.
    + cbn. intros now H. injection H; intros; subst. lia.
    + cbn. intros H. rewrite (stopped_false s B) in H; [discriminate|]. congruence.
  - destruct (thread s) eqn:E; auto. assert (stopped s = false) as Hs by (apply stopped_false; [auto|congruence]).
    destruct (queue s) as [|e q] eqn:Q; [now apply base_to_loop|].
    destruct (N.ltb_spec now (e_due e)) as [L|L].
    + apply base_thread; [auto|discriminate|congruence].
    + destruct (e_kind e) eqn:K.
      * destruct (base_run_one s now e q B E Q L) as [H|H]; [exact H|congruence].
      * exact (base_run_clean s now e q B E Q L K).
  - destruct (thread s) eqn:E; auto. assert (stopped s = false) as Hs by (apply stopped_false; [auto|congruence]).
    apply base_to_loop; [|exact Hs]. destruct B as [B1 B2 B3 B4 B5 B6 B7 B8 B9 B10]. split; cbn; auto.
    intros w Hw. unfold arm in Hw. destruct (relative next (clock s)); [discriminate|]. injection Hw; intros; subst. lia.
  - destruct (thread s) eqn:E; auto. assert (stopped s = false) as Hs by (apply stopped_false; [auto|congruence]).
    destruct (qpulse s); auto. apply base_to_loop; [|exact Hs]. destruct B as [B1 B2 B3 B4 B5 B6 B7 B8 B9 B10]. split; auto.
  - destruct (stopped s || joining s); auto. destruct B as [B1 B2 B3 B4 B5 B6 B7 B8 B9 B10]. destruct ok; split; cbn; auto; discriminate.
  - destruct (thread s) eqn:E; auto. destruct (joining s); auto. destruct B as [B1 B2 B3 B4 B5 B6 B7 B8 B9 B10]. split; cbn; auto.
Qed.

Lemma base_run : forall ls t, base (run (init t) ls).
Proof. intros. apply invariant; [exact base_step|apply base_init]. Qed.

(** ** Wake-ups of timely histories. *)
Record cover (s : st) : Prop := {
  c_idle : asleep s -> forall e, In e (queue s) -> exists w, timer s = Some w /\ (w <= e_due e + 1)%N;
  c_arm : forall nxt, thread s = TArm nxt -> (nxt < 2 ^ 63)%N /\ (pulses s = 0 -> forall e, In e (queue s) -> (nxt <= e_due e)%N);
  c_due : forall e, In e (queue s) -> (e_due e < 2 ^ 63)%N }.

Lemma relative_in_time : forall nxt now, (nxt < 2 ^ 63)%N -> (now <= nxt)%N -> arm now (relative nxt now) = Some (nxt + 1)%N.
Proof.
  intros nxt now H1 H2. unfold relative, to_u64.
  assert (Z.of_N nxt < 2 ^ 63)%Z by (change (2 ^ 63)%Z with (Z.of_N (2 ^ 63)); lia).
  rewrite Z.mod_small by (split; [lia|]; change (2 ^ 64)%Z with (2 * 2 ^ 63)%Z; lia).
  unfold arm. destruct (Z.to_N (Z.of_N nxt - Z.of_N now + 1)) eqn:E; [lia|]. f_equal. lia.
Qed.

Lemma cover_reg : forall s due o k, cover s -> (due < 2 ^ 63)%N ->
  cover (wake_up true (set_next (S (next s)) (set_queue (insert (mkE (next s) due o k) (queue s)) s))).
Proof.
  intros s due o k [C1 C2 C3] H. split; unfold asleep; cbn.
  - intros [_ F]. discriminate.
  - intros nxt E. split; [now apply (C2 nxt)|discriminate].
  - intros e He. apply in_insert in He. destruct He as [->|He]; auto.
Qed.

Lemma cover_step : forall s l, base s -> cover s -> timely s l -> cover (step s l).
Proof.
  intros s l B C [Hs [Hf Hi]]. destruct l; cbn [step sends fits in_time] in *.
  - subst ok. destruct (stopped s); auto. now apply cover_reg.
  - subst ok. destruct (stopped s || Nat.eqb owner 0); auto. apply cover_reg; [auto|reflexivity].
  - destruct (thread s) eqn:E; auto. destruct (Nat.eqb owner 0); auto. destruct C as [C1 C2 C3]. split; unfold asleep; cbn; rewrite ?E.
    + intros [F _]. discriminate.
    + discriminate.
    + intros e He. apply filter_In in He. apply C3. tauto.
  - unfold pass. destruct C as [C1 C2 C3]. destruct (timer s) as [w|] eqn:E.
    + destruct (N.leb w (clock s + d)); split; unfold asleep in *; cbn; rewrite ?E; auto.
      * intros [_ F]; discriminate.
      * intros nxt Ht. split; [now apply (C2 nxt)|discriminate].
    + split; unfold asleep in *; cbn; rewrite ?E; auto.
  - destruct (thread s) eqn:E; auto. destruct (pulses s) as [|p]; auto. destruct C as [C1 C2 C3]. split; unfold asleep; cbn; auto.
    + intros [F _]; discriminate.
    + discriminate.
  - destruct (thread s) eqn:E; auto. destruct C as [C1 C2 C3]. destruct (queue s) as [|e q] eqn:Q.
    + unfold to_loop. split; unfold asleep; cbn; rewrite Q; cbn; try tauto. destruct (quit s); discriminate.
    + destruct (N.ltb_spec now (e_due e)) as [L|L].
      * split; unfold asleep; cbn.
        -- intros [F _]; discriminate.
        -- intros nxt F. injection F; intros; subst. split; [apply C3; now left|]. intros _ x Hx.
           pose proof (b_sorted s B) as S1. rewrite Q in S1, Hx. inversion S1 as [|a b S2 S3]; subst. rewrite Forall_forall in S3.
           destruct Hx as [<-|Hx]; [lia|]. destruct (S3 x Hx) as [F1|[F1 _]]; lia.
        -- rewrite Q. exact C3.
      * destruct (e_kind e); split; unfold asleep; cbn; rewrite ?E.
        -- intros [F _]; discriminate.
        -- discriminate.
        -- intros x Hx. apply C3. now right.
        -- intros [F _]; discriminate.
        -- discriminate.
        -- intros x Hx. apply filter_In in Hx. apply C3. right. tauto.
  - destruct (thread s) eqn:E; auto. destruct C as [C1 C2 C3]. destruct (C2 _ E) as [D1 D2]. specialize (Hi _ eq_refl).
    rewrite relative_in_time by assumption. unfold to_loop. split; unfold asleep; cbn.
    + intros [F1 F2] x Hx. exists (next + 1)%N. split; [reflexivity|]. specialize (D2 F2 x Hx). lia.
    + destruct (quit s); discriminate.
    + exact C3.
  - destruct (thread s) eqn:E; auto. destruct (qpulse s); auto. destruct C as [C1 C2 C3]. unfold to_loop. split; unfold asleep; cbn.
    + intros [F _]; discriminate.
    + discriminate.
    + exact C3.
  - subst ok. destruct (stopped s || joining s); auto. destruct C as [C1 C2 C3]. split; auto.
  - destruct (thread s) eqn:E; auto. destruct (joining s); auto. destruct C as [C1 C2 C3]. split; auto.
Qed.

Lemma cover_run : forall ls s, base s -> cover s -> along timely s ls -> cover (run s ls).
Proof.
  induction ls as [|l r IH]; intros s B C H; [exact C|]. destruct H as [H1 H2]. rewrite run_cons.
  apply IH; [now apply base_step|now apply cover_step|exact H2].
Qed.

Lemma cover_init : forall t, cover (init t).
Proof. intros t. split; cbn; try tauto; discriminate. Qed.

Lemma filter_len : forall (f : entry -> bool) l, length (filter f l) <= length l.
Proof. intros f l. induction l as [|a r IH]; cbn; [lia|]. destruct (f a); cbn; lia. Qed.

(** ** The loop of ProcessQueue executes everything that is due. *)
Lemma loop_runs : forall n s now e, length (queue s) <= n -> base s -> thread s = TLoop now -> In e (queue s) -> (e_due e <= now)%N ->
  exists k, let s' := run s (repeat LRun k) in In e (map fst (ran s')) \/ In e (removed s').
Proof.
  induction n as [|n IH]; intros s now e Hl B Ht He Hd.
  - destruct (queue s); [destruct He|cbn in Hl; lia].
  - destruct (queue s) as [|a q] eqn:Q; [destruct He|].
    pose proof (b_sorted s B) as S1. rewrite Q in S1. inversion S1 as [|x y S2 S3]; subst. rewrite Forall_forall in S3.
    assert (e_due a <= now)%N as Ha by (destruct He as [->|He]; [auto|destruct (S3 e He) as [F|[F _]]; lia]).
    pose proof (base_step s LRun B) as B'.
    assert (thread (step s LRun) = TLoop now) as T' by
      (cbn [step]; rewrite Ht, Q; destruct (N.ltb_spec now (e_due a)); [lia|]; destruct (e_kind a); exact Ht).
    assert (length (queue (step s LRun)) <= n) as L'.
    { cbn [step]. rewrite Ht, Q. destruct (N.ltb_spec now (e_due a)); [lia|]. cbn in Hl. destruct (e_kind a); cbn; [lia|].
      etransitivity; [apply filter_len|lia]. }
    destruct He as [->|He].
    + exists 1. cbn [repeat]. rewrite run_cons. cbn [run fold_left]. left.
      cbn [step]. rewrite Ht, Q. destruct (N.ltb_spec now (e_due e)); [lia|]. destruct (e_kind e); cbn; now left.
    + assert (In e (queue (step s LRun)) \/ In e (removed (step s LRun))) as [G|G].
      { cbn [step]. rewrite Ht, Q. destruct (N.ltb_spec now (e_due a)); [lia|]. destruct (e_kind a); cbn; [now left|].
        destruct (owned (e_owner a) e) eqn:O; [right|left].
        - apply in_or_app. left. apply filter_In. auto.
        - apply filter_In. rewrite O. auto. }
      * destruct (IH (step s LRun) now e L' B' T' G Hd) as [k Hk]. exists (S k). cbn [repeat]. rewrite run_cons. exact Hk.
      * exists 1. cbn [repeat]. rewrite run_cons. cbn [run fold_left]. now right.
Qed.
