(** C22, C62: the sample count limit of a subscription and the ownership of SamplePtrs. *)
From Verif Require Import Base TrackerModel.

(** * Specification vocabulary *)
Fixpoint total {A} (f : A -> nat) (l : list A) : nat := match l with [] => 0 | x :: l => f x + total f l end.
Definition b2n (b : bool) : nat := if b then 1 else 0.

(** references reserved by a running GetNewSamples *)
Definition reserved_by (c : tpc) : nat :=
  match c with TLoop _ got _ => got | TGot g => g | TWrap g _ => g | _ => 0 end.
(** references a running SamplePtr destructor or assignment has not given back yet *)
Definition returning (c : tpc) : nat :=
  match c with TRel _ g | TAsgS _ g | TAsgG g => b2n g | _ => 0 end.
(** slot references held by a running operation *)
Definition slots_in (c : tpc) : nat :=
  match c with TWrap _ m => m | TRel s _ | TCheck s | TAsgS s _ => b2n s | TSlot => 1 | _ => 0 end.
(** a destructor between returning the reference and releasing the slot *)
Definition in_window (c : tpc) : nat := match c with TCheck s => b2n s | TSlot => 1 | _ => 0 end.

(** SamplePtrs the user holds that keep a sample *)
Definition held (s : tst) : nat := total (fun p => b2n (p_slot p)) (ps s).
Definition reserved (s : tst) : nat := total reserved_by (ths s).
Definition in_return (s : tst) : nat := total returning (ths s).
(** samples of the provider this subscriber keeps from being reused *)
Definition slots_held (s : tst) : nat := held s + total slots_in (ths s).
Definition windows (s : tst) : nat := total in_window (ths s).
Definition alive (s : tst) : Prop := assert_failed s = false /\ unsub_fatal s = false.

(** * Lemmas *)
Lemma lset_len {A} (l : list A) v : forall i, length (lset l i v) = length l.
Proof. induction l as [|x l IH]; intros [|i]; cbn; auto. Qed.

Lemma lset_out {A} (l : list A) v : forall i, length l <= i -> lset l i v = l.
Proof. induction l as [|x l IH]; intros [|i] H; cbn in *; auto; [lia|]. f_equal. apply IH. lia. Qed.

Lemma lset_nth {A} (l : list A) v d : forall i j, i < length l -> nth j (lset l i v) d = if j =? i then v else nth j l d.
Proof.
  induction l as [|x l IH]; intros i j H; [cbn in H; lia|].
  destruct i as [|i], j as [|j]; cbn in *; auto. apply (IH i j). lia.
Qed.

Lemma total_lset {A} (f : A -> nat) l i v d : i < length l -> total f (lset l i v) + f (nth i l d) = total f l + f v.
Proof.
  revert i. induction l as [|x l IH]; intros i H; [cbn in H; lia|].
  destruct i as [|i]; cbn in *; [lia|]. specialize (IH i ltac:(lia)). lia.
Qed.

Lemma total_le {A} (f g : A -> nat) l : (forall x, In x l -> f x <= g x) -> total f l <= total g l.
Proof.
  induction l as [|x l IH]; intros H; cbn; [lia|].
  pose proof (H x (or_introl eq_refl)). specialize (IH (fun y Y => H y (or_intror Y))). lia.
Qed.

Lemma total_zero {A} (f : A -> nat) l : (forall x, In x l -> f x = 0) -> total f l = 0.
Proof.
  induction l as [|x l IH]; intros H; cbn; [lia|].
  rewrite (H x (or_introl eq_refl)). rewrite (IH (fun y Y => H y (or_intror Y))). reflexivity.
Qed.

Lemma total_add {A} (f g : A -> nat) l : total (fun x => f x + g x) l = total f l + total g l.
Proof. induction l as [|x l IH]; cbn; lia. Qed.

Lemma total_ge {A} (f : A -> nat) l i d : i < length l -> f (nth i l d) <= total f l.
Proof.
  revert i. induction l as [|x l IH]; intros i H; [cbn in H; lia|].
  destruct i as [|i]; cbn in *; [lia|]. specialize (IH i ltac:(lia)). lia.
Qed.

Lemma in_lset {A} (l : list A) v x : forall i, In x (lset l i v) -> x = v \/ In x l.
Proof.
  induction l as [|y l IH]; intros [|i] H; cbn in *; auto; destruct H as [H|H]; auto.
  destruct (IH _ H); auto.
Qed.

Definition pc_ok (c : tpc) : Prop :=
  match c with TRel s g | TAsgS s g => s = g | TWrap g m => m <= g | TGot g => 0 < g | _ => True end.

Record TInv (s : tst) : Prop := {
  ti_sum : avail s + reserved s + in_return s + held s = tmax s;
  ti_ps : forall p, In p (ps s) -> p_slot p = p_guard p /\ (p_slot p = true -> p_ptr p = true);
  ti_pc : forall c, In c (ths s) -> pc_ok c;
  ti_sub : subd s = false -> in_return s = 0 /\ held s = 0 /\ forall g m, In (TWrap g m) (ths s) -> m = 0;
  ti_af : assert_failed s = false }.

Lemma th_in s t : t < length (ths s) -> In (th s t) (ths s).
Proof. intros. apply nth_In. exact H. Qed.
Lemma pt_in s i : i < length (ps s) -> In (pt s i) (ps s).
Proof. intros. apply nth_In. exact H. Qed.
Lemma pt_ok s i : TInv s -> p_slot (pt s i) = p_guard (pt s i) /\ (p_slot (pt s i) = true -> p_ptr (pt s i) = true).
Proof.
  intros H. destruct (Nat.lt_ge_cases i (length (ps s))) as [L|L]; [apply (ti_ps _ H), pt_in, L|].
  unfold pt. rewrite nth_overflow by exact L. cbn. split; [reflexivity|discriminate].
Qed.

Lemma th_out s t : length (ths s) <= t -> th s t = TIdle.
Proof. intros. unfold th. apply nth_overflow. exact H. Qed.

(** changing one thread *)
Lemma upd_th s t c : t < length (ths s) ->
  total reserved_by (lset (ths s) t c) + reserved_by (th s t) = reserved s + reserved_by c /\
  total returning (lset (ths s) t c) + returning (th s t) = in_return s + returning c.
Proof. intros H. split; apply total_lset; exact H. Qed.

Lemma TInv_th s t a c : TInv s -> t < length (ths s) -> pc_ok c ->
  a + reserved_by c + returning c = avail s + reserved_by (th s t) + returning (th s t) ->
  (subd s = false -> returning c = 0 /\ forall g m, c = TWrap g m -> m = 0) ->
  TInv (set_th (set_avail s a) t c).
Proof.
  intros H L P E S. destruct (upd_th s t c L) as [U1 U2]. destruct H as [H1 H2 H3 H4 H5].
  constructor; cbn [avail tmax ths ps subd assert_failed set_th set_avail]; auto.
  - unfold reserved, in_return, held in *. cbn [ths ps set_th set_avail]. lia.
  - intros x X. apply in_lset in X as [->|X]; auto.
  - intros F. destruct (H4 F) as (H41 & H42 & H43). destruct (S F) as [S1 S2].
    split; [unfold in_return in *; cbn [ths set_th set_avail]; lia|]. split; [exact H42|].
    intros g m X. apply in_lset in X as [X|X]; eauto.
Qed.

Lemma set_avail_same s : set_avail s (avail s) = s.
Proof. destruct s; reflexivity. Qed.

Lemma in_get_reserved l : existsb in_get l = false -> total reserved_by l = 0.
Proof.
  intros E. apply total_zero. intros x X. destruct (in_get x) eqn:G.
  - assert (existsb in_get l = true) by (apply existsb_exists; eauto). congruence.
  - destruct x; try discriminate; reflexivity.
Qed.

Lemma p_total s i p : i < length (ps s) ->
  total (fun p => b2n (p_slot p)) (lset (ps s) i p) + b2n (p_slot (pt s i)) = held s + b2n (p_slot p).
Proof. intros H. apply (total_lset (fun p => b2n (p_slot p)) (ps s) i p pnull H). Qed.

(** changing one SamplePtr and one thread together *)
Lemma TInv_th_p s t a c i p : TInv s -> t < length (ths s) -> i < length (ps s) -> pc_ok c ->
  p_slot p = p_guard p -> (p_slot p = true -> p_ptr p = true) ->
  a + reserved_by c + returning c + b2n (p_slot p) = avail s + reserved_by (th s t) + returning (th s t) + b2n (p_slot (pt s i)) ->
  (subd s = false -> returning c = 0 /\ p_slot p = false /\ forall g m, c = TWrap g m -> m = 0) ->
  TInv (set_p (set_th (set_avail s a) t c) i p).
Proof.
  intros H L LI P PG PP E S. destruct (upd_th s t c L) as [U1 U2]. pose proof (p_total s i p LI) as U3. destruct H as [H1 H2 H3 H4 H5].
  constructor; cbn [avail tmax ths ps subd assert_failed set_th set_avail set_p]; auto.
  - unfold reserved, in_return, held in *. cbn [ths ps set_th set_avail set_p]. lia.
  - intros x X. apply in_lset in X as [->|X]; auto.
  - intros x X. apply in_lset in X as [->|X]; auto.
  - intros F. destruct (H4 F) as (H41 & H42 & H43). destruct (S F) as (S1 & S2 & S3).
    split; [unfold in_return in *; cbn [ths set_th set_avail set_p]; lia|].
    split; [unfold held in *; cbn [ps set_th set_avail set_p]; rewrite S2 in *; cbn [b2n] in *; lia|].
    intros g m X. apply in_lset in X as [X|X]; eauto.
Qed.

(** changing one SamplePtr into another with the same resources *)
Lemma TInv_ps s l : TInv s -> total (fun p => b2n (p_slot p)) l = held s ->
  (forall p, In p l -> p_slot p = p_guard p /\ (p_slot p = true -> p_ptr p = true)) ->
  TInv (mkT (avail s) (tmax s) (subd s) (ths s) l (assert_failed s) (unsub_fatal s)).
Proof.
  intros H E P. destruct H as [H1 H2 H3 H4 H5]. constructor; cbn; auto.
  - unfold reserved, in_return, held in *. cbn. rewrite E. exact H1.
  - intros F. destruct (H4 F) as (A & B & C). split; [exact A|]. split; [|exact C]. unfold held in *. cbn. rewrite E. exact B.
Qed.

Lemma two_sets (l : list sptr) i j p q : i < length l -> j < length l -> i <> j ->
  total (fun p => b2n (p_slot p)) (lset (lset l j p) i q) + b2n (p_slot (nth i l pnull)) + b2n (p_slot (nth j l pnull))
  = total (fun p => b2n (p_slot p)) l + b2n (p_slot p) + b2n (p_slot q).
Proof.
  intros I J N. pose proof (total_lset (fun p => b2n (p_slot p)) (lset l j p) i q pnull ltac:(rewrite lset_len; exact I)) as A.
  pose proof (total_lset (fun p => b2n (p_slot p)) l j p pnull J) as B. cbn beta in A, B.
  rewrite lset_nth in A by exact J. destruct (Nat.eqb_spec i j); [lia|]. lia.
Qed.

Lemma TInv_step s l : TInv s -> TInv (tstep s l).
Proof.
  intros H. destruct l as [t n|t sp m j|t i|i j|t d sr|i j|n ok|]; cbn [tstep].
  - destruct (Nat.ltb_spec t (length (ths s))) as [L|L]; [|exact H]. case_eq (th s t); intros; try exact H.
    rewrite <- (set_avail_same s) at 1. apply TInv_th; [exact H|exact L|exact I|rewrite H0; cbn; lia|].
    intros _. split; [reflexivity|discriminate].
  - destruct (Nat.lt_ge_cases t (length (ths s))) as [L|L]; [|unfold tstep1; rewrite th_out by exact L; exact H].
    pose proof (ti_pc _ H _ (th_in s t L)) as PC. unfold tstep1.
    assert (SETH : forall c, pc_ok c -> reserved_by c + returning c = reserved_by (th s t) + returning (th s t) ->
              (subd s = false -> returning c = 0 /\ forall g m, c = TWrap g m -> m = 0) -> TInv (set_th s t c)).
    { intros c C1 C2 C3. rewrite <- (set_avail_same s) at 1. apply TInv_th; auto. lia. }
    assert (NR : subd s = false -> returning (th s t) = 0).
    { intros F. destruct (ti_sub _ H F) as [IR _]. unfold in_return in IR.
      pose proof (total_ge returning (ths s) t TIdle L). unfold th. lia. }
    assert (NW : subd s = false -> forall g m, th s t = TWrap g m -> m = 0).
    { intros F g mm E. destruct (ti_sub _ H F) as (_ & _ & W). apply (W g). rewrite <- E. apply th_in. exact L. }
    assert (TRIV : forall c, returning c = 0 -> (forall g m, c <> TWrap g m) -> subd s = false -> returning c = 0 /\ forall g m, c = TWrap g m -> m = 0).
    { intros c R N _. split; [exact R|]. intros g mm E. destruct (N _ _ E). }
    revert PC SETH NR NW. case_eq (th s t); intros; cbn [pc_ok reserved_by returning] in *.
    + exact H.
    + destruct (Nat.ltb_spec 0 n); cbn [andb]; [destruct (Nat.ltb_spec 0 e); cbn [andb]|].
      * destruct (Nat.eqb_spec (avail s) e) as [A|A]; cbn [andb]; [destruct sp; cbn [negb]|].
        -- apply SETH; [exact I|reflexivity|apply TRIV; [reflexivity|discriminate]].
        -- apply TInv_th; [exact H|exact L|exact I| |apply TRIV; [reflexivity|discriminate]]. rewrite H0. cbn. lia.
        -- apply SETH; [exact I|reflexivity|apply TRIV; [reflexivity|discriminate]].
      * destruct (Nat.eqb_spec got 0); apply SETH; try (apply TRIV; [reflexivity|discriminate]); cbn; try exact I; lia.
      * destruct (Nat.eqb_spec got 0); apply SETH; try (apply TRIV; [reflexivity|discriminate]); cbn; try exact I; lia.
    + apply SETH; [cbn; destruct (subd s); lia|reflexivity|]. intros F. split; [reflexivity|]. rewrite F. intros g0 m0 E. injection E. auto.
    + destruct m0 as [|m']; [destruct (Nat.ltb_spec 0 g)|destruct g as [|g']; [exact H|]].
      * apply TInv_th; [exact H|exact L|exact I| |apply TRIV; [reflexivity|discriminate]]. rewrite H0. cbn. lia.
      * apply SETH; [exact I|cbn; lia|apply TRIV; [reflexivity|discriminate]].
      * destruct (Nat.ltb_spec j (length (ps s))) as [LJ|]; cbn [andb]; [|exact H].
        destruct (p_ptr (pt s j)) eqn:PP; cbn [negb andb]; [exact H|].
        destruct (p_guard (pt s j)) eqn:PG; cbn [negb andb]; [exact H|].
        destruct (pt_ok s j H) as [PS _]. rewrite PG in PS.
        rewrite <- (set_avail_same s) at 1. apply TInv_th_p; [exact H|exact L|exact LJ|cbn in *; lia|reflexivity|reflexivity|rewrite H0, PS; cbn; lia|].
        intros F. specialize (NW F _ _ eq_refl). discriminate.
    + subst slot. destruct guard.
      * apply TInv_th; [exact H|exact L|exact I| |apply TRIV; [reflexivity|discriminate]]. rewrite H0. cbn. lia.
      * apply SETH; [exact I|reflexivity|apply TRIV; [reflexivity|discriminate]].
    + assert (AM : avail s <= tmax s) by (pose proof (ti_sum _ H); lia).
      apply Nat.leb_le in AM. rewrite AM. cbn [negb]. rewrite (ti_af _ H). cbn [orb].
      replace (mkT (avail s) (tmax s) (subd s) (ths s) (ps s) false (unsub_fatal s)) with s by (destruct s; cbn in *; pose proof (ti_af _ H) as Q; cbn in Q; rewrite Q; reflexivity).
      destruct slot; apply SETH; try exact I; try reflexivity; apply TRIV; try reflexivity; discriminate.
    + apply SETH; [exact I|reflexivity|apply TRIV; [reflexivity|discriminate]].
    + subst slot. apply SETH; [exact I|reflexivity|]. intros F. split; [apply NR, F|discriminate].
    + destruct guard.
      * apply TInv_th; [exact H|exact L|exact I| |apply TRIV; [reflexivity|discriminate]]. rewrite H0. cbn. lia.
      * apply SETH; [exact I|reflexivity|apply TRIV; [reflexivity|discriminate]].
  - destruct (Nat.ltb_spec t (length (ths s))) as [L|L]; [|exact H]. case_eq (th s t); intros; try exact H.
    destruct (pt_ok s i H) as [PS PP]. destruct (Nat.lt_ge_cases i (length (ps s))) as [LI|LI].
    + rewrite <- (set_avail_same s) at 1. apply TInv_th_p; auto.
      * rewrite H0. cbn [reserved_by returning p_slot pnull b2n]. rewrite PS. lia.
      * intros F. destruct (ti_sub _ H F) as (_ & HE & _). unfold held in HE.
        pose proof (total_ge (fun p => b2n (p_slot p)) (ps s) i pnull LI) as G. cbn beta in G. fold (pt s i) in G.
        cbn. rewrite <- PS. split; [lia|]. split; [reflexivity|discriminate].
    + assert (E : pt s i = pnull) by (unfold pt; apply nth_overflow; exact LI). rewrite E. cbn [pnull p_slot p_guard].
      unfold set_p. cbn [ps set_th]. rewrite lset_out by exact LI.
      change (TInv (set_th s t (TRel false false))). rewrite <- (set_avail_same s) at 1.
      apply TInv_th; [exact H|exact L|exact eq_refl|rewrite H0; cbn; lia|]. intros _. split; [reflexivity|discriminate].
  - destruct (Nat.ltb_spec i (length (ps s))) as [LI|]; cbn [andb]; [|exact H].
    destruct (Nat.ltb_spec j (length (ps s))) as [LJ|]; cbn [andb]; [|exact H].
    destruct (Nat.eqb_spec i j) as [|NE]; cbn [negb andb]; [exact H|].
    destruct (p_guard (pt s j)) eqn:PG; cbn [negb andb]; [exact H|].
    destruct (p_slot (pt s j)) eqn:PSJ; cbn [negb]; [exact H|].
    unfold set_p. cbn [avail tmax subd ths ps assert_failed unsub_fatal]. apply TInv_ps; auto.
    + pose proof (two_sets (ps s) i j (pt s i) pnull LI LJ NE) as T. fold (pt s i) in T. fold (pt s j) in T. rewrite PSJ in T. cbn in T. unfold held. lia.
    + intros p X. apply in_lset in X as [->|X]; [split; [reflexivity|discriminate]|]. apply in_lset in X as [->|X]; [apply pt_ok, H|apply (ti_ps _ H), X].
  - destruct (Nat.ltb_spec t (length (ths s))) as [L|L]; cbn [andb]; [|exact H].
    destruct (Nat.ltb_spec d (length (ps s))) as [LD|]; cbn [andb]; [|exact H].
    destruct (Nat.ltb_spec sr (length (ps s))) as [LS|]; cbn [andb]; [|exact H].
    destruct (Nat.eqb_spec d sr) as [|NE]; cbn [negb andb]; [exact H|].
    case_eq (th s t); intros; try exact H.
    destruct (pt_ok s d H) as [PSD PPD]. destruct (pt_ok s sr H) as [PSS PPS].
    set (s1 := set_p (set_th (set_avail s (avail s)) t (TAsgS (p_slot (pt s d)) (p_guard (pt s d)))) d pnull).
    assert (H1 : TInv s1).
    { apply TInv_th_p; auto.
      * rewrite H0. cbn [reserved_by returning p_slot pnull b2n]. rewrite PSD. lia.
      * intros F. destruct (ti_sub _ H F) as (_ & HE & _). unfold held in HE.
        pose proof (total_ge (fun p => b2n (p_slot p)) (ps s) d pnull LD) as G. cbn beta in G. fold (pt s d) in G.
        cbn. rewrite <- PSD. split; [lia|]. split; [reflexivity|discriminate]. }
    set (l' := lset (lset (ps s) d (pt s sr)) sr (mkP (p_ptr (pt s sr)) false false)).
    change (TInv (mkT (avail s1) (tmax s1) (subd s1) (ths s1) l' (assert_failed s1) (unsub_fatal s1))).
    apply TInv_ps; [exact H1| |].
    + pose proof (two_sets (ps s) sr d (pt s sr) (mkP (p_ptr (pt s sr)) false false) LS LD ltac:(lia)) as T.
      pose proof (p_total s d pnull LD) as T2. unfold held at 1. fold (pt s sr) in T. fold (pt s d) in T. cbn [p_slot b2n pnull] in T, T2.
      subst l' s1. cbn [ps set_p set_th set_avail]. unfold held in T2. lia.
    + intros p X. subst l'. apply in_lset in X as [->|X]; [split; [reflexivity|discriminate]|]. apply in_lset in X as [->|X]; [auto|apply (ti_ps _ H), X].
  - destruct (Nat.ltb_spec i (length (ps s))) as [LI|]; cbn [andb]; [|exact H].
    destruct (Nat.ltb_spec j (length (ps s))) as [LJ|]; cbn [andb]; [|exact H].
    unfold set_p. cbn [avail tmax subd ths ps assert_failed unsub_fatal]. apply TInv_ps; auto.
    + destruct (Nat.eq_dec i j) as [->|NE].
      * unfold held. pose proof (total_lset (fun p => b2n (p_slot p)) (lset (ps s) j (pt s j)) j (pt s j) pnull ltac:(rewrite lset_len; exact LJ)) as A.
        pose proof (total_lset (fun p => b2n (p_slot p)) (ps s) j (pt s j) pnull LJ) as B. cbn beta in A, B. rewrite lset_nth in A by exact LJ.
        rewrite Nat.eqb_refl in A. fold (pt s j) in A, B. lia.
      * pose proof (two_sets (ps s) i j (pt s i) (pt s j) LI LJ NE) as T. fold (pt s i) in T. fold (pt s j) in T. unfold held. lia.
    + intros p X. apply in_lset in X as [->|X]; [apply pt_ok, H|]. apply in_lset in X as [->|X]; [apply pt_ok, H|apply (ti_ps _ H), X].
  - destruct (subd s) eqn:SU; cbn [orb]; [exact H|]. destruct (existsb in_get (ths s)) eqn:IG; [exact H|].
    destruct (ti_sub _ H SU) as (A & B & C). pose proof (in_get_reserved _ IG) as R.
    constructor; cbn; [|exact (ti_ps _ H)|exact (ti_pc _ H)|intros _; auto|exact (ti_af _ H)].
    unfold reserved, in_return, held in *. cbn. lia.
  - destruct (subd s) eqn:SU; cbn [orb negb]; [|exact H]. destruct (existsb in_get (ths s)) eqn:IG; [exact H|].
    unfold IsUsed. destruct (Nat.ltb_spec (avail s) (tmax s)).
    + constructor; cbn; [exact (ti_sum _ H)|exact (ti_ps _ H)|exact (ti_pc _ H)|discriminate|exact (ti_af _ H)].
    + pose proof (ti_sum _ H). constructor; cbn; [exact (ti_sum _ H)|exact (ti_ps _ H)|exact (ti_pc _ H)| |exact (ti_af _ H)].
      intros _. split; [unfold in_return in *; cbn; lia|]. split; [unfold held in *; cbn; lia|].
      intros g m X. assert (E : existsb in_get (ths s) = true) by (apply existsb_exists; eexists; split; [exact X|reflexivity]). congruence.
Qed.

Lemma TInv_init nt np : TInv (tinit nt np).
Proof.
  assert (R1 : forall f : tpc -> nat, f TIdle = 0 -> total f (repeat TIdle nt) = 0).
  { intros f F. apply total_zero. intros x X. apply repeat_spec in X. subst. exact F. }
  assert (R2 : total (fun p => b2n (p_slot p)) (repeat pnull np) = 0).
  { apply total_zero. intros x X. apply repeat_spec in X. subst. reflexivity. }
  constructor; cbn.
  - unfold reserved, in_return, held. cbn. rewrite !R1, R2 by reflexivity. reflexivity.
  - intros p X. apply repeat_spec in X. subst. cbn. split; [reflexivity|discriminate].
  - intros p X. apply repeat_spec in X. subst. exact I.
  - intros _. unfold in_return, held. cbn. rewrite !R1, R2 by reflexivity. split; [reflexivity|]. split; [reflexivity|].
    intros g m X. apply repeat_spec in X. discriminate.
  - reflexivity.
Qed.

Lemma TInv_run nt np ls : TInv (trun (tinit nt np) ls).
Proof.
  pose proof (TInv_init nt np) as H. revert H. generalize (tinit nt np). induction ls as [|l ls IH]; cbn [trun]; intros s H; [exact H|].
  destruct (_ || _)%bool; [exact H|]. apply IH, TInv_step, H.
Qed.

(** * C22 *)

(** At every moment of every interleaving the SamplePtrs the user holds, the references reserved by
    running GetNewSamples calls and those not yet returned by running destructors add up, with the free
    count, to the subscribed count. *)
Theorem C22_limit : forall nthreads nptrs ls, let s := trun (tinit nthreads nptrs) ls in
  held s + reserved s <= tmax s /\ avail s = tmax s - (held s + reserved s + in_return s).
Proof. intros nt np ls. cbn zeta. pose proof (ti_sum _ (TInv_run nt np ls)). lia. Qed.

(** Between operations GetFreeSampleCount is exactly the limit minus the SamplePtrs held. *)
Theorem C22_free_count : forall nthreads nptrs ls, let s := trun (tinit nthreads nptrs) ls in
  (forall c, In c (ths s) -> c = TIdle) -> avail s + held s = tmax s.
Proof.
  intros nt np ls. cbn zeta. set (s := trun (tinit nt np) ls). intros ID.
  pose proof (ti_sum _ (TInv_run nt np ls)) as S. fold s in S.
  assert (reserved s = 0) by (apply total_zero; intros c C; rewrite (ID c C); reflexivity).
  assert (in_return s = 0) by (apply total_zero; intros c C; rewrite (ID c C); reflexivity). lia.
Qed.

(** The consistency assertion of the tracker never fails. *)
Theorem C22_assertion_never_fails : forall nthreads nptrs ls, assert_failed (trun (tinit nthreads nptrs) ls) = false.
Proof. intros. exact (ti_af _ (TInv_run nthreads nptrs ls)). Qed.

(** Destroying a SamplePtr frees exactly one, or nothing if it is null or moved from; nobody else is
    affected: the free count of a process that does nothing else rises by just that. *)
Theorem C22_release_frees_one : forall nthreads nptrs ls t i, let s := trun (tinit nthreads nptrs) ls in
  alive s -> t < nthreads -> th s t = TIdle ->
  let s' := trun s [KDrop t i; KStep t false 0 0; KStep t false 0 0; KStep t false 0 0] in
  avail s' = avail s + b2n (p_slot (pt s i)) /\ th s' t = TIdle /\
  held s' + b2n (p_slot (pt s i)) = held s /\ alive s'.
Proof.
  intros nt np ls t i. cbn zeta. set (s := trun (tinit nt np) ls). intros [A1 A2] T ID.
  pose proof (TInv_run nt np ls) as H. fold s in H.
  assert (LEN : length (ths s) = nt).
  { assert (G : forall ls s0, length (ths (trun s0 ls)) = length (ths s0)).
    { clear. induction ls as [|l ls IH]; intros s0; cbn [trun]; [reflexivity|]. destruct (_ || _)%bool; [reflexivity|]. rewrite IH.
      destruct l; cbn [tstep]; unfold tstep1; repeat match goal with |- context [match ?x with _ => _ end] => destruct x end;
      cbn [ths set_p set_th set_avail]; rewrite ?lset_len; reflexivity. }
    subst s. rewrite G. cbn. apply repeat_length. }
  assert (L : t < length (ths s)) by lia. destruct (pt_ok s i H) as [PS PP].
  assert (AM : avail s + b2n (p_slot (pt s i)) <= tmax s).
  { pose proof (ti_sum _ H). destruct (Nat.lt_ge_cases i (length (ps s))) as [LI|LI].
    - pose proof (total_ge (fun p => b2n (p_slot p)) (ps s) i pnull LI) as G. cbn beta in G. fold (pt s i) in G. unfold held in *. lia.
    - unfold pt. rewrite nth_overflow by exact LI. cbn. lia. }
  assert (HE : total (fun p => b2n (p_slot p)) (lset (ps s) i pnull) + b2n (p_slot (pt s i)) = held s).
  { destruct (Nat.lt_ge_cases i (length (ps s))) as [LI|LI].
    - rewrite (p_total s i pnull LI). cbn. lia.
    - rewrite lset_out by exact LI. unfold pt. rewrite nth_overflow by exact LI. cbn. unfold held. lia. }
  assert (N : forall l c, length l = length (ths s) -> nth t (lset l t c) TIdle = c).
  { intros l c E. rewrite lset_nth by lia. rewrite Nat.eqb_refl. reflexivity. }
  pose proof L as L'. apply Nat.ltb_lt in L'.
  cbn [trun]. rewrite A1, A2. cbn [orb tstep]. rewrite L', ID. rewrite <- PS.
  destruct s as [av tm su tt pp af uf]. cbn in A1, A2. subst af uf. unfold th, held in *. cbn [ths ps avail tmax] in *.
  destruct (p_slot (pt (mkT av tm su tt pp false false) i)); cbn [b2n] in *.
  - cbn [set_p set_th set_avail avail tmax subd ths ps assert_failed unsub_fatal orb]. unfold tstep1, th.
    cbn [set_p set_th set_avail avail tmax subd ths ps assert_failed unsub_fatal orb]. rewrite N by reflexivity.
    cbn [set_p set_th set_avail avail tmax subd ths ps assert_failed unsub_fatal orb]. rewrite N by (rewrite lset_len; reflexivity).
    destruct (Nat.leb_spec (av + 1) tm); [|lia].
    cbn [set_p set_th set_avail avail tmax subd ths ps assert_failed unsub_fatal orb negb]. rewrite N by (rewrite !lset_len; reflexivity).
    cbn [set_p set_th set_avail avail tmax subd ths ps assert_failed unsub_fatal orb negb]. rewrite N by (rewrite !lset_len; reflexivity).
    unfold alive. cbn. repeat split; auto.
  - cbn [set_p set_th set_avail avail tmax subd ths ps assert_failed unsub_fatal orb]. unfold tstep1, th.
    cbn [set_p set_th set_avail avail tmax subd ths ps assert_failed unsub_fatal orb]. rewrite N by reflexivity.
    cbn [set_p set_th set_avail avail tmax subd ths ps assert_failed unsub_fatal orb]. rewrite N by (rewrite lset_len; reflexivity).
    cbn [set_p set_th set_avail avail tmax subd ths ps assert_failed unsub_fatal orb]. rewrite N by (rewrite lset_len; reflexivity).
    unfold alive. cbn. repeat split; auto. apply N, lset_len.
Qed.

(** A GetNewSamples call nobody disturbs reserves as many references as asked for and free. *)
Theorem C22_reserves_what_is_free : forall s t n, t < length (ths s) -> th s t = TIdle -> alive s ->
  let k := Nat.min n (avail s) in
  exists ls, let s' := trun s (KGet t n :: ls) in
    avail s' = avail s - k /\ th s' t = (if k =? 0 then TIdle else TGot k) /\ (forall l, In l ls -> exists m j, l = KStep t false m j).
Proof.
  intros s t n L ID [A1 A2]. cbn zeta.
  assert (N : forall l c, length l = length (ths s) -> nth t (lset l t c) TIdle = c).
  { intros l c E. rewrite lset_nth by lia. rewrite Nat.eqb_refl. reflexivity. }
  pose proof L as L'. apply Nat.ltb_lt in L'.
  destruct s as [av tm su tt pp af uf]. cbn [assert_failed unsub_fatal ths] in A1, A2, L, L', N. subst af uf. unfold th in ID. cbn in ID.
  assert (IN : forall k l, In l (repeat (KStep t false 0 0) k) -> exists m j, l = KStep t false m j).
  { intros k l X. apply repeat_spec in X. eauto. }
  destruct (Nat.eq_dec n 0) as [->|Nn]; [|destruct (Nat.eq_dec av 0) as [->|Nv]].
  - exists (repeat (KStep t false 0 0) 1). split; [|split; [|apply IN]];
    cbn [repeat trun assert_failed unsub_fatal orb tstep ths avail tmax subd ps set_th set_avail]; rewrite L'; unfold th, tstep1, th; cbn [ths]; rewrite ID;
    cbn [assert_failed unsub_fatal orb tstep ths avail tmax subd ps set_th set_avail]; rewrite N by reflexivity; cbn; [lia|].
    apply N. apply lset_len.
  - exists (repeat (KStep t false 0 0) 1). rewrite Nat.min_0_r. split; [|split; [|apply IN]];
    cbn [repeat trun assert_failed unsub_fatal orb tstep ths avail tmax subd ps set_th set_avail]; rewrite L'; unfold th, tstep1, th; cbn [ths]; rewrite ID;
    cbn [assert_failed unsub_fatal orb tstep ths avail tmax subd ps set_th set_avail]; rewrite N by reflexivity; 
    destruct (Nat.ltb_spec 0 n); cbn; try lia; apply N; apply lset_len.
  - cbn [avail]. destruct (Nat.le_gt_cases n av) as [LE|GT].
    + exists (repeat (KStep t false 0 0) 2). rewrite Nat.min_l by lia.
      cbn [repeat trun assert_failed unsub_fatal orb tstep ths avail tmax subd ps set_th set_avail]. rewrite L'. unfold th, tstep1, th. cbn [ths]. rewrite ID.
      cbn [assert_failed unsub_fatal orb tstep ths avail tmax subd ps set_th set_avail]. rewrite N by reflexivity.
      destruct (Nat.ltb_spec 0 n); [|lia]. destruct (Nat.ltb_spec 0 av); [|lia]. rewrite Nat.eqb_refl. cbn [andb negb].
      rewrite (Nat.min_r av n) by lia.
      cbn [assert_failed unsub_fatal orb tstep ths avail tmax subd ps set_th set_avail]. rewrite N by (rewrite !lset_len; reflexivity).
      rewrite Nat.sub_diag. cbn [Nat.ltb Nat.leb andb Nat.add]. destruct (Nat.eqb_spec n 0); [lia|].
      cbn [assert_failed unsub_fatal orb tstep ths avail tmax subd ps set_th set_avail]. rewrite N by (rewrite !lset_len; reflexivity).
      split; [reflexivity|]. split; [reflexivity|apply (IN 2)].
    + exists (repeat (KStep t false 0 0) 3). rewrite Nat.min_r by lia.
      assert (R : forall a tt' l ls, trun (mkT a tm su tt' pp false false) (l :: ls) = trun (tstep (mkT a tm su tt' pp false false) l) ls) by reflexivity.
      set (t1 := lset tt t (TLoop n 0 av)). assert (L1 : length t1 = length tt) by apply lset_len.
      assert (S0 : tstep (mkT av tm su tt pp false false) (KGet t n) = mkT av tm su t1 pp false false).
      { cbn [tstep ths]. rewrite L'. unfold th. cbn [ths]. rewrite ID. reflexivity. }
      assert (S1 : tstep (mkT av tm su t1 pp false false) (KStep t false 0 0) = mkT 0 tm su (lset t1 t (TLoop (n - av) av av)) pp false false).
      { cbn [tstep]. unfold tstep1, th. cbn [ths]. unfold t1. rewrite N by reflexivity. fold t1.
        destruct (Nat.ltb_spec 0 n); [|lia]. destruct (Nat.ltb_spec 0 av); [|lia]. cbn [andb avail]. rewrite Nat.eqb_refl. cbn [andb negb].
        rewrite (Nat.min_l av n) by lia. unfold set_th, set_avail. cbn [avail tmax subd ths ps assert_failed unsub_fatal]. rewrite Nat.sub_diag. reflexivity. }
      set (t2 := lset t1 t (TLoop (n - av) av av)) in *. assert (L2 : length t2 = length tt) by (unfold t2; rewrite lset_len; exact L1).
      assert (S2 : tstep (mkT 0 tm su t2 pp false false) (KStep t false 0 0) = mkT 0 tm su (lset t2 t (TLoop (n - av) av 0)) pp false false).
      { cbn [tstep]. unfold tstep1, th. cbn [ths]. unfold t2. rewrite N by exact L1. fold t2.
        destruct (Nat.ltb_spec 0 (n - av)); [|lia]. destruct (Nat.ltb_spec 0 av); [|lia]. cbn [andb avail]. destruct (Nat.eqb_spec 0 av); [lia|]. reflexivity. }
      set (t3 := lset t2 t (TLoop (n - av) av 0)) in *. assert (L3 : length t3 = length tt) by (unfold t3; rewrite lset_len; exact L2).
      assert (S3 : tstep (mkT 0 tm su t3 pp false false) (KStep t false 0 0) = mkT 0 tm su (lset t3 t (TGot av)) pp false false).
      { cbn [tstep]. unfold tstep1, th. cbn [ths]. unfold t3. rewrite N by exact L2. fold t3.
        rewrite Bool.andb_false_r. destruct (Nat.eqb_spec av 0); [lia|]. reflexivity. }
      cbn [repeat]. rewrite R, S0, R, S1, R, S2, R, S3. cbn [trun avail]. rewrite Nat.sub_diag. split; [reflexivity|]. split; [|apply (IN 3)].
      unfold th. cbn [ths]. rewrite N by exact L3. destruct (Nat.eqb_spec av 0); [lia|reflexivity].
Qed.

(** The number of samples kept from reuse exceeds the subscribed count by at most the number of
    destructors between returning the reference and releasing the slot. *)
Theorem C22_samples_kept_partial : forall nthreads nptrs ls, let s := trun (tinit nthreads nptrs) ls in
  slots_held s <= tmax s + windows s.
Proof.
  intros nt np ls. cbn zeta. set (s := trun (tinit nt np) ls). pose proof (TInv_run nt np ls) as H. fold s in H.
  assert (total slots_in (ths s) <= total (fun c => reserved_by c + (returning c + in_window c)) (ths s)).
  { apply total_le. intros c C. pose proof (ti_pc _ H c C) as P. destruct c as [| | |g m|a b|a| |a b|a]; cbn in *; try lia; subst; lia. }
  rewrite !total_add in H0. pose proof (ti_sum _ H). unfold slots_held, windows, reserved, in_return in *. lia.
Qed.

(** It does exceed it: the destructor of a SamplePtr returns the reference before it releases the slot
    (members are destroyed in reverse order of declaration), so another thread that calls GetNewSamples in
    between gets one more.  Subscribed with 1, two samples are kept from reuse. *)
Theorem C22_samples_kept_refuted : exists ls, let s := trun (tinit 2 2) ls in
  alive s /\ tmax s = 1 /\ slots_held s = 2.
Proof.
  exists [KSubscribe 1 true; KGet 0 1; KStep 0 false 0 0; KStep 0 false 0 0; KStep 0 false 1 0; KStep 0 false 0 0; KStep 0 false 0 0;
          KDrop 0 0; KStep 0 false 0 0;
          KGet 1 1; KStep 1 false 0 0; KStep 1 false 0 0; KStep 1 false 1 0; KStep 1 false 0 1].
  vm_compute. repeat split.
Qed.

Definition c22_run : list tlabel :=
  [KSubscribe 3 true; KGet 0 2; KGet 1 5; KStep 0 false 0 0; KStep 1 false 0 0; KStep 1 true 0 0; KStep 1 false 0 0;
   KStep 1 false 0 0; KStep 1 false 0 0; KStep 0 false 0 0; KStep 0 false 2 0; KStep 1 false 1 0; KStep 1 false 0 0;
   KStep 0 false 0 1; KStep 0 false 0 2; KStep 1 false 0 0; KStep 0 false 0 0; KMove 0 3; KDrop 1 3].
Example C22_example : let s := trun (tinit 2 4) c22_run in
  tmax s = 3 /\ held s = 2 /\ avail s = 0 /\ in_return s = 1 /\
  avail (trun (tinit 2 4) (c22_run ++ [KStep 1 false 0 0])) = 1.
Proof. vm_compute. repeat split. Qed.

(** * C62: ownership *)

(** A SamplePtr that keeps a sample tests non-null. *)
Theorem C62_owner_is_not_null : forall nthreads nptrs ls i, let s := trun (tinit nthreads nptrs) ls in
  p_slot (pt s i) = true -> p_ptr (pt s i) = true.
Proof. intros. exact (proj2 (pt_ok _ i (TInv_run nthreads nptrs ls)) H). Qed.

(** The converse fails: the source of a move assignment still tests non-null and get() returns the
    sample, although it keeps nothing. *)
Theorem C62_not_null_owns_refuted : exists ls, let s := trun (tinit 1 2) ls in
  alive s /\ p_ptr (pt s 0) = true /\ p_slot (pt s 0) = false /\ slots_held s = 0.
Proof.
  exists [KSubscribe 1 true; KGet 0 1; KStep 0 false 0 0; KStep 0 false 0 0; KStep 0 false 1 0; KStep 0 false 0 0; KStep 0 false 0 0;
          KAssign 0 1 0; KStep 0 false 0 0; KStep 0 false 0 0;
          KDrop 0 1; KStep 0 false 0 0; KStep 0 false 0 0; KStep 0 false 0 0].
  vm_compute. repeat split.
Qed.

(** Without move assignment (construction, Reset, swap, destruction) the two agree. *)
Theorem C62_not_null_owns_partial : forall nthreads nptrs ls i, let s := trun (tinit nthreads nptrs) ls in
  (forall t d sr, ~ In (KAssign t d sr) ls) -> p_ptr (pt s i) = p_slot (pt s i).
Proof.
  intros nt np ls i. cbn zeta. intros NA.
  assert (G : forall p, In p (ps (trun (tinit nt np) ls)) -> p_ptr p = p_slot p).
  { assert (B : forall p, In p (ps (tinit nt np)) -> p_ptr p = p_slot p) by (intros p X; apply repeat_spec in X; subst; reflexivity).
    revert B NA. generalize (tinit nt np). induction ls as [|l ls IH]; intros s B NA; cbn [trun]; [exact B|].
    destruct (_ || _)%bool; [exact B|]. apply IH; [|intros t d sr X; apply (NA t d sr); right; exact X]. clear IH.
    assert (PT : forall k, p_ptr (pt s k) = p_slot (pt s k)).
    { intros k. destruct (Nat.lt_ge_cases k (length (ps s))) as [L|L]; [apply B, pt_in, L|unfold pt; rewrite nth_overflow by exact L; reflexivity]. }
    destruct l as [t n|t sp m j|t k|k j|t d sr|k j|n ok|]; cbn [tstep].
    - destruct (_ <? _); [|exact B]. destruct (th s t); exact B.
    - unfold tstep1. destruct (th s t) as [|n got e|g|g m0|sl gu|sl| |sl gu|gu]; try exact B.
      + destruct (_ && _)%bool; [destruct (_ && _)%bool; exact B|]. destruct (_ =? _); exact B.
      + destruct m0; [destruct (_ <? _); exact B|]. destruct g; [exact B|]. destruct (_ && _)%bool; [|exact B].
        cbn. intros p X. apply in_lset in X as [->|X]; [reflexivity|apply B, X].
      + destruct gu; exact B.
      + destruct gu; exact B.
    - destruct (_ <? _); [|exact B]. destruct (th s t); try exact B. cbn. intros p X. apply in_lset in X as [->|X]; [reflexivity|apply B, X].
    - destruct (_ && _)%bool; [|exact B]. cbn. intros p X. apply in_lset in X as [->|X]; [reflexivity|]. apply in_lset in X as [->|X]; [apply PT|apply B, X].
    - destruct (NA t d sr). left. reflexivity.
    - destruct (_ && _)%bool; [|exact B]. cbn. intros p X. apply in_lset in X as [->|X]; [apply PT|]. apply in_lset in X as [->|X]; [apply PT|apply B, X].
    - destruct (_ || _)%bool; exact B.
    - destruct (_ || _)%bool; [exact B|]. destruct (IsUsed s); exact B. }
  destruct (Nat.lt_ge_cases i (length (ps (trun (tinit nt np) ls)))) as [L|L]; [apply G, pt_in, L|unfold pt; rewrite nth_overflow by exact L; reflexivity].
Qed.

(** Unsubscribing while SamplePtrs are held terminates; otherwise nothing is left in use. *)
Theorem C22_unsubscribe : forall nthreads nptrs ls, let s := trun (tinit nthreads nptrs) ls in
  alive s -> subd s = true -> (forall c, In c (ths s) -> in_get c = false) ->
  let s' := tstep s KUnsubscribe in
  (0 < held s -> unsub_fatal s' = true) /\
  (unsub_fatal s' = false -> subd s' = false /\ held s' = 0 /\ avail s' = tmax s').
Proof.
  intros nt np ls. cbn zeta. set (s := trun (tinit nt np) ls). intros [A1 A2] SU IG. pose proof (TInv_run nt np ls) as H. fold s in H.
  cbn [tstep]. rewrite SU. cbn [negb orb].
  destruct (existsb in_get (ths s)) eqn:E; [apply existsb_exists in E as (c & C & X); rewrite (IG c C) in X; discriminate|].
  pose proof (ti_sum _ H) as S. unfold IsUsed. destruct (Nat.ltb_spec (avail s) (tmax s)); cbn.
  - split; [reflexivity|discriminate].
  - split; [lia|]. intros _. split; [reflexivity|]. unfold held in *. cbn. lia.
Qed.

Print Assumptions C22_limit.
Print Assumptions C22_free_count.
Print Assumptions C22_assertion_never_fails.
Print Assumptions C22_release_frees_one.
Print Assumptions C22_reserves_what_is_free.
Print Assumptions C22_samples_kept_partial.
Print Assumptions C22_unsubscribe.
Print Assumptions C62_owner_is_not_null.
Print Assumptions C62_not_null_owns_partial.
