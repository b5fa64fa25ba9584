From Coq Require Import List Arith Bool Lia.
From Verif Require Import FactModel FactSpec.
Import ListNotations.

Lemma upd_eq {A} (f : nat -> A) i x : upd f i x i = x.
Proof. unfold upd. now rewrite Nat.eqb_refl. Qed.
Lemma upd_neq {A} (f : nat -> A) i x j : j <> i -> upd f i x j = f j.
Proof. unfold upd. intros N. apply Nat.eqb_neq in N. now rewrite N. Qed.

Definition crit (x : tst) : bool :=
  match x with
  | TLook _ | TFs _ | TMap _ _ | TIns _ _ | TCheck _ _ | TUnl _ _ | TDrop _ _ | TDtorL _ _ | TUnmapL _ _ | TTmp _ => true
  | _ => false
  end.
Definition mention (x : tst) : option nat :=
  match x with
  | TMap _ r | TIns _ r | TCheck _ r | TUnl _ r | TDrop _ r | TDtorL _ r | TUnmapL _ r | TDtor r | TUnmap r => Some r
  | _ => None
  end.
Definition noreg (s : st) (r : nat) : Prop := forall k, reg s k <> Some r.

Definition tok (c : cfg) (s : st) (x : tst) : Prop :=
  match x with
  | TFs o => opens o = true /\ fmap s (opath o) = None
  | TMap o r => opens o = true /\ fmap s (opath o) = None /\ r < nxt s /\ rpath (info s r) = opath o /\
                held s r = 0 /\ noreg s r /\ mapd s r = false
  | TIns o r => opens o = true /\ fmap s (opath o) = None /\ r < nxt s /\ rpath (info s r) = opath o /\
                held s r = 0 /\ mapd s r = true
  | TCheck o r => opens o = true /\ r < nxt s /\ rpath (info s r) = opath o /\ mapd s r = true
  | TUnl o r | TDrop o r => r < nxt s /\ rpath (info s r) = opath o /\ mapd s r = true
  | TDtorL o r => r < nxt s /\ rpath (info s r) = opath o /\ held s r = 0 /\ mapd s r = true
  | TUnmapL o r => r < nxt s /\ held s r = 0 /\ noreg s r /\ mapd s r = true
  | TDtor r => r < nxt s /\ held s r = 0 /\ mapd s r = true
  | TUnmap r => r < nxt s /\ held s r = 0 /\ noreg s r /\ mapd s r = true
  | TDone o (Some r) => opens o = true /\ r < nxt s /\ rpath (info s r) = opath o /\
                        admitted c (ruid (info s r)) (allowed o) = true
  | _ => True
  end.

Record inv (c : cfg) (s : st) : Prop := mkInv {
  i_tok : forall t, tok c s (th s t);
  i_lock : forall t, crit (th s t) = true <-> lockh s = Some t;
  i_uniq : forall t t' r, mention (th s t) = Some r -> mention (th s t') = Some r -> t = t';
  i_held : forall r, 0 < held s r -> r < nxt s /\ mapd s r = true;
  i_fmap : forall p r, fmap s p = Some r -> r < nxt s /\ rpath (info s r) = p;
  i_reg : forall k r, reg s k = Some r -> r < nxt s /\ key c (rpath (info s r)) = k /\ mapd s r = true;
  i_map : forall r, mapd s r = true -> r < nxt s /\ (0 < held s r \/ exists t, mention (th s t) = Some r)
}.

Lemma inv_init c : inv c init.
Proof. split; cbn; intros; try tauto; try lia; try discriminate. split; discriminate. Qed.

Lemma temp_mention x r : temp x = Some r -> mention x = Some r.
Proof. destruct x; cbn; congruence. Qed.
Lemma temp_crit x r : temp x = Some r -> crit x = true.
Proof. destruct x; cbn; congruence. Qed.
Lemma mention_tok c s x r : tok c s x -> mention x = Some r -> r < nxt s.
Proof. destruct x; cbn; try discriminate; intros H E; injection E as <-; intuition. Qed.

Lemma tok_frame c s s' y :
  tok c s y ->
  (forall r, r < nxt s -> r < nxt s' /\ info s' r = info s r) ->
  (forall r, mention y = Some r -> (held s r = 0 -> held s' r = 0) /\ mapd s' r = mapd s r /\ (noreg s r -> noreg s' r)) ->
  (crit y = true -> forall p, fmap s p = None -> fmap s' p = None) ->
  tok c s' y.
Proof.
  intros T F1 F2 F3. destruct y; cbn in *; auto;
    repeat match goal with
    | H : _ /\ _ |- _ => destruct H
    | H : match ?a with Some _ => _ | None => _ end |- _ => destruct a; [|exact I]
    end;
    try (match goal with H : ?r < nxt s |- _ => destruct (F1 r H) as [? E]; rewrite ?E end);
    try (match goal with r : nat |- _ => destruct (F2 r eq_refl) as (? & E2 & ?); rewrite ?E2 end);
    repeat split; auto.
Qed.

Lemma inv_frame c s s' t x :
  inv c s ->
  (forall t', th s' t' = upd (th s) t x t') ->
  tok c s' x ->
  (crit x = true <-> lockh s' = Some t) ->
  (lockh s' = lockh s \/ ((lockh s = None \/ lockh s = Some t) /\ (lockh s' = None \/ lockh s' = Some t))) ->
  (forall r, mention x = Some r -> mention (th s t) = Some r \/ forall t', mention (th s t') <> Some r) ->
  (forall r, r < nxt s -> r < nxt s' /\ info s' r = info s r) ->
  (forall t' r, t' <> t -> mention (th s t') = Some r -> mention (th s t) <> Some r ->
      (held s r = 0 -> held s' r = 0) /\ mapd s' r = mapd s r /\ (noreg s r -> noreg s' r)) ->
  ((forall p, fmap s p = None -> fmap s' p = None) \/ lockh s = Some t) ->
  (forall r, 0 < held s' r -> r < nxt s' /\ mapd s' r = true) ->
  (forall p r, fmap s' p = Some r -> r < nxt s' /\ rpath (info s' r) = p) ->
  (forall k r, reg s' k = Some r -> r < nxt s' /\ key c (rpath (info s' r)) = k /\ mapd s' r = true) ->
  (forall r, mapd s' r = true -> r < nxt s' /\ (0 < held s' r \/ mention x = Some r \/
       exists t', t' <> t /\ mention (th s t') = Some r)) ->
  inv c s'.
Proof.
  intros V TH TX CX LK MX F1 F2 F3 H1 H2 H3 H4. split; auto.
  - intros t'. rewrite TH. destruct (Nat.eq_dec t' t) as [->|N]; [rewrite upd_eq; exact TX|].
    rewrite upd_neq by exact N. apply (tok_frame c s); auto.
    + apply V.
    + intros r M. apply (F2 t' r N M). intros M2. apply N. exact (i_uniq _ _ V _ _ _ M M2).
    + destruct F3 as [F3|F3]; auto. intros C. apply (i_lock _ _ V) in C. congruence.
  - intros t'. rewrite TH. destruct (Nat.eq_dec t' t) as [->|N]; [rewrite upd_eq; exact CX|].
    rewrite upd_neq by exact N. rewrite (i_lock _ _ V).
    destruct LK as [->|[[A|A] [B|B]]]; rewrite ?A, ?B; try tauto; split; congruence.
  - intros t1 t2 r. rewrite !TH.
    destruct (Nat.eq_dec t1 t) as [->|N1]; [rewrite upd_eq|rewrite upd_neq by exact N1];
    (destruct (Nat.eq_dec t2 t) as [->|N2]; [rewrite upd_eq|rewrite upd_neq by exact N2]); auto; intros M1 M2.
    + destruct (MX r M1) as [A|A]; [exact (i_uniq _ _ V _ _ _ A M2)|destruct (A _ M2)].
    + destruct (MX r M2) as [A|A]; [exact (i_uniq _ _ V _ _ _ M1 A)|destruct (A _ M1)].
    + exact (i_uniq _ _ V _ _ _ M1 M2).
  - intros r M. destruct (H4 r M) as [L [A|[A|(t' & N & A)]]]; split; auto.
    + right. exists t. now rewrite TH, upd_eq.
    + right. exists t'. now rewrite TH, upd_neq.
Qed.

Ltac ufold :=
  unfold finish, give, opened, created, unregister, release, set_files, set_held, set_mapd, set_fmap, set_reg,
    set_lock, set_th, set_dead, new_res, new_file in *; cbn in *.

(** When the process terminates only the flag changes. *)
Lemma inv_dead c s : inv c s -> inv c (set_dead s).
Proof. intros [A B C D E F G]. now split. Qed.

Lemma inv_set_fmap_none c s p : inv c s -> inv c (set_fmap s (upd (fmap s) p None)).
Proof.
  intros V. destruct V as [A B C D E F G]. split; auto.
  - intros t. apply (tok_frame c s); cbn; auto.
    intros _ q Hq. destruct (Nat.eq_dec q p) as [->|N]; [now rewrite upd_eq|now rewrite upd_neq].
  - cbn. intros q r. destruct (Nat.eq_dec q p) as [->|N]; [now rewrite upd_eq|rewrite upd_neq by exact N; apply E].
Qed.

Lemma inv_files c s x n : inv c s ->
  inv c (mkSt x n (info s) (nxt s) (mapd s) (held s) (fmap s) (reg s) (lockh s) (th s) (dead s)).
Proof. intros [A B C D E F G]. now split. Qed.

(** Only the place of thread [t] and perhaps the mutex change. *)
Lemma inv_move c s t x lk :
  inv c s -> tok c s x -> (crit x = true <-> lk = Some t) ->
  (lk = lockh s \/ ((lockh s = None \/ lockh s = Some t) /\ (lk = None \/ lk = Some t))) ->
  (forall r, mention x = Some r -> mention (th s t) = Some r \/ forall t', mention (th s t') <> Some r) ->
  (forall r, mention (th s t) = Some r -> mention x = Some r \/ 0 < held s r \/ mapd s r = false) ->
  inv c (set_th (set_lock s lk) t x).
Proof.
  intros V TX CX LK MX MO. apply (inv_frame c s _ t x); auto; cbn.
  - apply V. - apply V. - apply V.
  - intros r M. destruct (i_map _ _ V r M) as [L [A|(t' & A)]]; split; auto.
    destruct (Nat.eq_dec t' t) as [->|N]; [|right; right; eauto].
    destruct (MO r A) as [B|[B|B]]; auto. congruence.
Qed.

(** The lookup, FA 95-111. *)
Lemma lookup_inv c s p f s1 : inv c s -> lookup s p = (f, s1) ->
  inv c s1 /\ th s1 = th s /\ lockh s1 = lockh s /\ held s1 = held s /\ info s1 = info s /\ nxt s1 = nxt s /\
  mapd s1 = mapd s /\ reg s1 = reg s /\ files s1 = files s /\ nino s1 = nino s /\ dead s1 = dead s /\
  match f with Some r => fmap s p = Some r /\ 0 < held s r /\ s1 = s | None => fmap s1 p = None /\
     (forall q, q <> p -> fmap s1 q = fmap s q) /\ (forall r, fmap s p = Some r -> held s r = 0) end.
Proof.
  unfold lookup. intros V. destruct (fmap s p) as [r|] eqn:E.
  - destruct (Nat.ltb_spec 0 (held s r)); intros [= <- <-].
    + repeat (split; [auto|]). auto.
    + split; [apply inv_set_fmap_none; exact V|]. cbn. repeat (split; [reflexivity|]).
      split; [apply upd_eq|]. split; [intros q N; now rewrite upd_neq|]. intros r0 [= <-]. lia.
  - intros [= <- <-]. repeat (split; [auto|]). repeat split; auto. discriminate.
Qed.

Lemma th_set s t : forall t', th s t' = upd (th s) t (th s t) t'.
Proof. intros t'. destruct (Nat.eq_dec t' t) as [->|N]; [now rewrite upd_eq|now rewrite upd_neq]. Qed.

(** A handle more, FA 181: the call returns. *)
Lemma inv_give c s t o r :
  inv c s -> lockh s = Some t -> mention (th s t) = Some r -> opens o = true ->
  r < nxt s -> rpath (info s r) = opath o -> mapd s r = true ->
  admitted c (ruid (info s r)) (allowed o) = true -> inv c (give s t o r).
Proof.
  intros V LK M O L RP MP AD.
  apply (inv_frame c s _ t (TDone o (Some r))); unfold give, finish; cbn; auto.
  - split; discriminate.
  - discriminate.
  - intros t' r' N M' NM. repeat split; auto. intros Z. rewrite upd_neq; congruence.
  - intros r'. destruct (Nat.eq_dec r' r) as [->|N]; [auto|rewrite upd_neq by exact N; apply V].
  - apply V. - apply V.
  - intros r' MP'. destruct (i_map _ _ V r' MP') as [L' [A|(t' & A)]]; split; auto.
    + left. destruct (Nat.eq_dec r' r) as [->|N]; [rewrite upd_eq; lia|now rewrite upd_neq].
    + destruct (Nat.eq_dec r' r) as [->|N]; [left; rewrite upd_eq; lia|].
      right. right. exists t'. split; auto. intros ->. congruence.
Qed.

Lemma inv_call c s t o : inv c s -> th s t = Idle -> inv c (set_th s t (TLock o)).
Proof.
  intros V E. change s with (set_lock s (lockh s)) at 1 || idtac.
  replace (set_th s t (TLock o)) with (set_th (set_lock s (lockh s)) t (TLock o)) by (destruct s; reflexivity).
  assert (K := i_lock _ _ V t). rewrite E in K. cbn in K.
  apply inv_move; auto; cbn; try tauto; try discriminate.
  rewrite E. discriminate.
Qed.
