(** C51: shared memory in use is never removed or recreated; C52: single provider per service
    instance; C70: offering again never terminates the provider. *)
From Verif Require Import Base ShmLifeModel.

(** * Specification vocabulary *)

Inductive reach (ok : st -> label -> Prop) : st -> Prop :=
| reach_init : reach ok init
| reach_step s l s' : reach ok s -> ok s l -> step s l s' -> reach ok s'.

Definition any_schedule (s : st) (l : label) : Prop := True.

(** A provider for the instance exists. *)
Definition live (s : st) (i : nat) : Prop := exists e, holds_existence (prov s i) = Some e.
(** It offers the service with shared memory object g. *)
Definition offers (s : st) (i g : nat) : Prop := exists e u, prov s i = POffered e u g.
(** Consumer c uses shared memory object g. *)
Definition uses (s : st) (c g : nat) : Prop := exists u, cons s c = CUsing u g.
(** The object a new user of the instance's shared memory gets. *)
Definition present (s : st) (g : nat) : Prop := spath s = Some g.

(** Creating a skeleton does not overlap with destroying one. *)
Definition creation_apart (s : st) (l : label) : Prop :=
  match l with
  | PDestroy _ => forall j e, prov s j <> PCreating e
  | PCreate _ => forall j e, prov s j <> PDestroying e
  | _ => True
  end.

Definition stopping (p : ppc) : bool :=
  match p with PStopX _ _ _ | PStopU _ _ | PStopC _ _ => true | _ => false end.

(** A consumer that has opened the usage marker file and not yet locked it does not overlap with
    the removal of the file by StopOfferService. *)
Definition attach_apart (s : st) (l : label) : Prop :=
  match l with
  | PStop _ true => forall j u, cons s j <> COpened u
  | CCreate _ => forall j, stopping (prov s j) = false
  | _ => True
  end.

Definition apart (s : st) (l : label) : Prop := creation_apart s l /\ attach_apart s l.

Lemma reach_mono (P Q : st -> label -> Prop) s :
  (forall s l, P s l -> Q s l) -> reach P s -> reach Q s.
Proof.
  intros H. induction 1 as [|s l s' R IH O S]; [constructor|].
  exact (reach_step _ s l s' IH (H _ _ O) S).
Qed.

(** * C52 *)

Definition refers_e (p : ppc) : option nat :=
  match p with PCreating e | PDestroying e => Some e | _ => holds_existence p end.

Definition inv_e (s : st) : Prop :=
  (forall i e, refers_e (prov s i) = Some e -> epath s = Some e)
  /\ (forall i j, live s i -> live s j -> i = j)
  /\ (forall i e, prov s i = PDestroying e ->
        forall j, (exists e', prov s j = PCreating e') \/ live s j -> False)
  /\ (forall i j e e', prov s i = PDestroying e -> prov s j = PDestroying e' -> i = j).

Ltac upd i j := destruct (Nat.eq_dec j i) as [->|?];
  [rewrite ?fupd_eq in *|rewrite ?(fupd_neq _ i j) in * by assumption].

(** A step that keeps the existence path and changes one skeleton from one state holding its lock
    to another, or changes no skeleton. *)
Lemma inv_e_same s s' i e :
  inv_e s -> epath s' = epath s ->
  holds_existence (prov s i) = Some e -> holds_existence (prov s' i) = Some e ->
  (forall j, j <> i -> prov s' j = prov s j) -> inv_e s'.
Proof.
  intros (A & B & C & D) Ep Hi Hi' O.
  assert (L : forall j, live s' j -> live s j).
  { intros j [x Hx]. destruct (Nat.eq_dec j i) as [->|NE]; [exists e; exact Hi|].
    rewrite O in Hx by exact NE. exists x. exact Hx. }
  assert (NI : forall x, prov s' i <> PCreating x /\ prov s' i <> PDestroying x).
  { intros x. split; intros Q; rewrite Q in Hi'; discriminate. }
  split; [|split; [|split]].
  - intros j x H. rewrite Ep. destruct (Nat.eq_dec j i) as [->|NE].
    + apply (A i). assert (refers_e (prov s' i) = Some e).
      { destruct (prov s' i); cbn in *; congruence. }
      assert (refers_e (prov s i) = Some e) by (destruct (prov s i); cbn in *; congruence). congruence.
    + apply (A j). rewrite <- O by exact NE. exact H.
  - intros j k Hj Hk. apply B; apply L; assumption.
  - intros j x H k K. destruct (Nat.eq_dec j i) as [->|NE]; [generalize (NI x); tauto|].
    rewrite O in H by exact NE. apply (C j x H k). destruct K as [[y K]|K]; [|right; apply L, K].
    destruct (Nat.eq_dec k i) as [->|NE']; [exfalso; generalize (NI y); tauto|].
    rewrite O in K by exact NE'. left. exists y. exact K.
  - intros j k x y Hj Hk. destruct (Nat.eq_dec j i) as [->|NE]; [exfalso; generalize (NI x); tauto|].
    destruct (Nat.eq_dec k i) as [->|NE']; [exfalso; generalize (NI y); tauto|].
    rewrite O in Hj, Hk by assumption. exact (D _ _ _ _ Hj Hk).
Qed.

Lemma inv_e_gone s s' i :
  inv_e s -> epath s' = epath s ->
  refers_e (prov s' i) = None -> (forall j, j <> i -> prov s' j = prov s j) -> inv_e s'.
Proof.
  intros (A & B & C & D) Ep N O.
  assert (NI : forall x, prov s' i <> PCreating x /\ prov s' i <> PDestroying x /\ holds_existence (prov s' i) <> Some x).
  { intros x. destruct (prov s' i); cbn in *; repeat split; congruence. }
  assert (L : forall j, live s' j -> j <> i /\ live s j).
  { intros j [x Hx]. destruct (Nat.eq_dec j i) as [->|NE]; [exfalso; generalize (NI x); tauto|].
    split; [exact NE|]. rewrite O in Hx by exact NE. exists x. exact Hx. }
  split; [|split; [|split]].
  - intros j x H. rewrite Ep. destruct (Nat.eq_dec j i) as [->|NE]; [congruence|].
    apply (A j). rewrite <- O by exact NE. exact H.
  - intros j k Hj Hk. apply B; apply L; assumption.
  - intros j x H k K. destruct (Nat.eq_dec j i) as [->|NE]; [generalize (NI x); tauto|].
    rewrite O in H by exact NE. apply (C j x H k). destruct K as [[y K]|K]; [|right; apply L, K].
    destruct (Nat.eq_dec k i) as [->|NE']; [exfalso; generalize (NI y); tauto|].
    rewrite O in K by exact NE'. left. exists y. exact K.
  - intros j k x y Hj Hk. destruct (Nat.eq_dec j i) as [->|NE]; [exfalso; generalize (NI x); tauto|].
    destruct (Nat.eq_dec k i) as [->|NE']; [exfalso; generalize (NI y); tauto|].
    rewrite O in Hj, Hk by assumption. exact (D _ _ _ _ Hj Hk).
Qed.

Lemma inv_e_cons s s' : inv_e s -> epath s' = epath s -> prov s' = prov s -> inv_e s'.
Proof.
  intros I Ep P. unfold inv_e, live in *. rewrite Ep, P. exact I.
Qed.

Ltac neq_upd := intros; cbn [prov set_p]; rewrite fupd_neq by assumption; reflexivity.

Lemma inv_e_step s l s' : inv_e s -> creation_apart s l -> step s l s' -> inv_e s'.
Proof.
  intros I OK S.
  destruct S as [s i e P E|s i P E|s i e ok P F|s i e h u P E|s i e h P E|s i e u h ok P F|s i e u P
    |s i e u g P|s i e u ok P E|s i e u g P E|s i e u h g P E|s i e u P E|s i e u g ok P F|s i e u g P
    |s i e u P|s i e u P|s i e h P|s i e P|s i P|s i u P E|s i u ok P F|s i u g P E|s i u P E|s i u g P|s i P].
  - (* create, existing file *)
    cbn in OK. destruct I as (A & B & C & D).
    assert (L : forall j, live (set_p s i (PCreating e)) j -> live s j).
    { intros j [x Hx]. cbn in Hx. unfold live. upd i j; [discriminate|]. exists x. exact Hx. }
    split; [|split; [|split]]; cbn [prov set_p epath].
    + intros j x H. upd i j; [cbn in H; congruence|]. apply (A j x H).
    + intros j k Hj Hk. apply B; apply L; assumption.
    + intros j x H k K. upd i j; [discriminate|]. exact (OK _ _ H).
    + intros j k x y Hj Hk. upd i j; [discriminate|]. upd i k; [discriminate|]. exact (D _ _ _ _ Hj Hk).
  - (* create, new file *)
    cbn in OK. destruct I as (A & B & C & D).
    assert (NA : forall j x, refers_e (prov s j) <> Some x).
    { intros j x H. apply A in H. congruence. }
    assert (NL : forall j, ~ live s j).
    { intros j [x Hx]. apply (NA j x). destruct (prov s j); cbn in *; congruence. }
    split; [|split; [|split]]; cbn [prov epath].
    + intros j x H. upd i j; [cbn in H; congruence|]. destruct (NA j x H).
    + intros j k [x Hj] _. exfalso. cbn in Hj. upd i j; [discriminate|].
      apply (NL j). exists x. exact Hj.
    + intros j x H k K. upd i j; [discriminate|]. exact (OK _ _ H).
    + intros j k x y Hj Hk. upd i j; [discriminate|]. upd i k; [discriminate|]. exact (D _ _ _ _ Hj Hk).
  - (* lock *)
    destruct ok; cbn in F.
    + destruct I as (A & B & C & D).
      assert (Ep : epath s = Some e) by (apply (A i); rewrite P; reflexivity).
      assert (NL : forall j, ~ live s j).
      { intros j [x Hx]. assert (x = e).
        { assert (epath s = Some x) by (apply (A j); destruct (prov s j); cbn in *; congruence). congruence. }
        subst x. apply (F j). exact Hx. }
      assert (ND : forall j x, prov s j <> PDestroying x).
      { intros j x H. apply (C j x H i). left. exists e. exact P. }
      assert (L : forall j, live (set_p s i (PIdle e None)) j -> j = i).
      { intros j [x Hx]. cbn in Hx. upd i j; [reflexivity|]. exfalso. apply (NL j). exists x. exact Hx. }
      split; [|split; [|split]]; cbn [prov set_p epath].
      * intros j x H. upd i j; [cbn in H; congruence|]. apply (A j x H).
      * intros j k Hj Hk. rewrite (L j Hj), (L k Hk). reflexivity.
      * intros j x H. upd i j; [discriminate|]. destruct (ND _ _ H).
      * intros j k x y H. upd i j; [discriminate|]. destruct (ND _ _ H).
    + apply (inv_e_gone s _ i I); [reflexivity|cbn; rewrite fupd_eq; reflexivity|neq_upd].
  - apply (inv_e_same s _ i e I); [reflexivity|rewrite P; reflexivity|cbn; rewrite fupd_eq; reflexivity|neq_upd].
  - apply (inv_e_same s _ i e I); [reflexivity|rewrite P; reflexivity|cbn; rewrite fupd_eq; reflexivity|neq_upd].
  - apply (inv_e_same s _ i e I); [reflexivity|rewrite P; reflexivity|cbn; rewrite fupd_eq; destruct ok; reflexivity|neq_upd].
  - apply (inv_e_same s _ i e I); [reflexivity|rewrite P; reflexivity|cbn; rewrite fupd_eq; reflexivity|neq_upd].
  - apply (inv_e_gone s _ i I); [reflexivity|cbn; rewrite fupd_eq; reflexivity|neq_upd].
  - apply (inv_e_same s _ i e I); [reflexivity|rewrite P; reflexivity|cbn; rewrite fupd_eq; destruct ok; reflexivity|neq_upd].
  - apply (inv_e_same s _ i e I); [reflexivity|rewrite P; reflexivity|cbn; rewrite fupd_eq; reflexivity|neq_upd].
  - apply (inv_e_same s _ i e I); [reflexivity|rewrite P; reflexivity|cbn; rewrite fupd_eq; reflexivity|neq_upd].
  - apply (inv_e_same s _ i e I); [reflexivity|rewrite P; reflexivity|cbn; rewrite fupd_eq; reflexivity|neq_upd].
  - apply (inv_e_same s _ i e I); [reflexivity|rewrite P; reflexivity|cbn; rewrite fupd_eq; destruct ok; reflexivity|neq_upd].
  - apply (inv_e_same s _ i e I); [reflexivity|rewrite P; reflexivity|cbn; rewrite fupd_eq; reflexivity|neq_upd].
  - apply (inv_e_same s _ i e I); [reflexivity|rewrite P; reflexivity|cbn; rewrite fupd_eq; reflexivity|neq_upd].
  - apply (inv_e_same s _ i e I); [reflexivity|rewrite P; reflexivity|cbn; rewrite fupd_eq; reflexivity|neq_upd].
  - (* destroy: unlock *)
    cbn in OK. destruct I as (A & B & C & D).
    assert (Li : live s i) by (exists e; rewrite P; reflexivity).
    assert (L : forall j, ~ live (set_p s i (PDestroying e)) j).
    { intros j [x Hx]. cbn in Hx. upd i j; [discriminate|].
      assert (j = i) by (apply B; [exists x; exact Hx|exact Li]). congruence. }
    assert (ND : forall j x, prov s j <> PDestroying x).
    { intros j x H. apply (C j x H i). right. exact Li. }
    split; [|split; [|split]].
    + cbn [prov set_p epath]. intros j x H. upd i j; [|apply (A j x H)].
      cbn in H. apply (A i). rewrite P. exact H.
    + intros j k Hj. destruct (L j Hj).
    + intros j x H k [[y K]|K]; [|exact (L k K)]. cbn in K. upd i k; [discriminate|]. exact (OK _ _ K).
    + cbn [prov set_p]. intros j k x y Hj Hk. upd i j; [|destruct (ND _ _ Hj)].
      upd i k; [reflexivity|destruct (ND _ _ Hk)].
  - (* destroy: close and unlink *)
    destruct I as (A & B & C & D).
    assert (N : forall j, j <> i -> refers_e (prov s j) = None).
    { intros j NE. destruct (refers_e (prov s j)) as [x|] eqn:R; [exfalso|reflexivity].
      destruct (prov s j) eqn:Pj; cbn in R; try discriminate R.
      1: apply (C i e P j); left; exists e0; exact Pj.
      10: apply NE; exact (D _ _ _ _ Pj P).
      all: apply (C i e P j); right; exists x; rewrite Pj; exact R. }
    assert (N' : forall j, refers_e (fupd (prov s) i PNone j) = None).
    { intros j. upd i j; [reflexivity|]. apply N. assumption. }
    split; [|split; [|split]].
    + cbn [prov epath]. intros j x H. rewrite N' in H. discriminate.
    + intros j k [x Hx] _. cbn [prov] in Hx. exfalso. specialize (N' j).
      destruct (fupd (prov s) i PNone j); cbn in *; congruence.
    + cbn [prov]. intros j x H. specialize (N' j). rewrite H in N'. discriminate.
    + cbn [prov]. intros j k x y H. specialize (N' j). rewrite H in N'. discriminate.
  - apply (inv_e_gone s _ i I); [reflexivity|cbn; rewrite fupd_eq; reflexivity|neq_upd].
  - apply (inv_e_cons s _ I); reflexivity.
  - apply (inv_e_cons s _ I); reflexivity.
  - apply (inv_e_cons s _ I); reflexivity.
  - apply (inv_e_cons s _ I); reflexivity.
  - apply (inv_e_cons s _ I); reflexivity.
  - apply (inv_e_cons s _ I); reflexivity.
Qed.

Lemma inv_e_reach (ok : st -> label -> Prop) s :
  (forall s l, ok s l -> creation_apart s l) -> reach ok s -> inv_e s.
Proof.
  intros M. induction 1 as [|s l s' R IH O S].
  - unfold inv_e, live. cbn. repeat split; try discriminate. intros i j [x Hx]. discriminate.
  - exact (inv_e_step s l s' IH (M _ _ O) S).
Qed.

(** C52: at most one provider of the instance exists, as long as no skeleton is created while
    another one is being destroyed (crashes may happen at any time). *)
Theorem C52_single_provider_partial :
  forall s i j, reach creation_apart s -> live s i -> live s j -> i = j.
Proof.
  intros s i j R. destruct (inv_e_reach _ s (fun _ _ H => H) R) as (_ & B & _). apply B.
Qed.

(** While a provider exists a further creation fails. *)
Theorem C52_second_creation_fails_partial :
  forall s i j e ok s', reach creation_apart s -> live s i -> prov s j = PCreating e ->
  step s (PGo j ok) s' -> ok = false.
Proof.
  intros s i j e ok s' R [x Hx] P S.
  destruct (inv_e_reach _ s (fun _ _ H => H) R) as (A & _ & _).
  assert (X : epath s = Some x) by (apply (A i); destruct (prov s i); cbn in *; congruence).
  assert (Y : epath s = Some e) by (apply (A j); rewrite P; reflexivity).
  assert (x = e) by congruence. subst x.
  inversion S; subst; try congruence. destruct ok; [|reflexivity].
  exfalso. match goal with F : outcome true _ |- _ => apply (F i) end.
  congruence.
Qed.

(** * C51 *)

Definition refers_u (p : ppc) : option nat :=
  match p with
  | POpened _ u _ | PRecreate _ u _ | PCleared _ u | PReuse _ u _
  | POffered _ u _ | PStopX _ u _ | PStopU _ u | PStopC _ u => Some u
  | _ => None
  end.
Definition refers_c (c : cpc) : option nat :=
  match c with COpened u | CLocked u | CUsing u _ => Some u | CNone => None end.
Definition object (p : ppc) : option nat :=
  match p with
  | PIdle _ h | POpened _ _ h | PRecreate _ _ h | PReuse _ _ h => h
  | POffered _ _ g | PStopX _ _ g => Some g
  | _ => None
  end.
Definition cleared (p : ppc) : bool :=
  match p with PCleared _ _ | PStopU _ _ | PStopC _ _ => true | _ => false end.

Definition fits (s : st) (p : ppc) : Prop :=
  (forall u, refers_u p = Some u -> upath s = Some u)
  /\ (forall u, holds_usage p = Some u -> forall c, shares_usage (cons s c) <> Some u)
  /\ (stopping p = true -> forall c, cons s c = CNone)
  /\ (forall g, object p = Some g -> spath s = Some g)
  /\ (cleared p = true -> spath s = None).

Definition fits_c (s : st) (c : cpc) : Prop :=
  (forall u, refers_c c = Some u -> upath s = Some u)
  /\ (forall u g, c = CUsing u g -> spath s = Some g).

Definition inv_u (s : st) : Prop := (forall i, fits s (prov s i)) /\ (forall c, fits_c s (cons s c)).

Lemma object_live s i g : object (prov s i) = Some g -> live s i.
Proof. intros H. unfold live. destruct (prov s i); cbn in *; try discriminate; eexists; reflexivity. Qed.
Lemma refers_u_live s i u : refers_u (prov s i) = Some u -> live s i.
Proof. intros H. unfold live. destruct (prov s i); cbn in *; try discriminate; eexists; reflexivity. Qed.
Lemma stopping_live s i : stopping (prov s i) = true -> live s i.
Proof. intros H. unfold live. destruct (prov s i); cbn in *; try discriminate; eexists; reflexivity. Qed.
Lemma cleared_live s i : cleared (prov s i) = true -> live s i.
Proof. intros H. unfold live. destruct (prov s i); cbn in *; try discriminate; eexists; reflexivity. Qed.
Lemma holds_usage_live s i u : holds_usage (prov s i) = Some u -> live s i.
Proof. intros H. unfold live. destruct (prov s i); cbn in *; try discriminate; eexists; reflexivity. Qed.
Lemma stopping_refers p : stopping p = true -> exists u, refers_u p = Some u.
Proof. destruct p; cbn; try discriminate; eexists; reflexivity. Qed.
Lemma shares_refers c u : shares_usage c = Some u -> refers_c c = Some u.
Proof. destruct c; cbn; congruence. Qed.
Lemma holds_refers_u p u : holds_usage p = Some u -> refers_u p = Some u.
Proof. destruct p; cbn; congruence. Qed.

Lemma fits_same s s' p :
  upath s' = upath s -> spath s' = spath s -> cons s' = cons s -> fits s p -> fits s' p.
Proof. unfold fits. intros -> -> ->. auto. Qed.

(** Only skeleton i moves, the usage file and the shared memory stay. *)
Lemma inv_u_prov s s' i p :
  inv_u s -> upath s' = upath s -> spath s' = spath s -> cons s' = cons s ->
  prov s' = fupd (prov s) i p -> fits s p -> inv_u s'.
Proof.
  intros [A B] U S C P F. split.
  - intros j. rewrite P. apply (fits_same s s'); try assumption. upd i j; [exact F|apply A].
  - intros c. rewrite C. unfold fits_c. rewrite U, S. apply B.
Qed.

(** A skeleton that refers to nothing and holds no lock fits everywhere. *)
Lemma fits_nothing s p :
  refers_u p = None -> object p = None -> fits s p.
Proof.
  intros R O. assert (holds_usage p = None) by (destruct p; cbn in *; congruence).
  assert (stopping p = false) by (destruct p; cbn in *; congruence).
  assert (cleared p = false) by (destruct p; cbn in *; congruence).
  unfold fits. rewrite R, O, H, H0, H1. repeat split; discriminate.
Qed.

(** The skeleton at i is live: any other one refers to nothing. *)
Lemma others_nothing s i j :
  inv_e s -> live s i -> j <> i -> forall s', fits s' (prov s j).
Proof.
  intros (_ & B & _) L NE s'.
  assert (N : ~ live s j) by (intros H; apply NE, B; assumption).
  apply fits_nothing.
  - destruct (refers_u (prov s j)) eqn:E; [|reflexivity]. destruct N. exact (refers_u_live _ _ _ E).
  - destruct (object (prov s j)) eqn:E; [|reflexivity]. destruct N. exact (object_live _ _ _ E).
Qed.

Lemma inv_u_step s l s' : inv_e s -> inv_u s -> apart s l -> step s l s' -> inv_u s'.
Proof.
  intros IE I [_ OK] S.
  assert (I' := I). destruct I' as [A B].
  destruct S as [s i e P E|s i P E|s i e ok P F|s i e h u P E|s i e h P E|s i e u h ok P F|s i e u P
    |s i e u g P|s i e u ok P E|s i e u g P E|s i e u h g P E|s i e u P E|s i e u g ok P F|s i e u g P
    |s i e u P|s i e u P|s i e h P|s i e P|s i P|s i u P E|s i u ok P F|s i u g P E|s i u P E|s i u g P|s i P];
    cbn [attach_apart] in OK.
  - apply (inv_u_prov s _ i (PCreating e) I); try reflexivity. apply fits_nothing; reflexivity.
  - apply (inv_u_prov s _ i (PCreating (fresh s)) I); try reflexivity. apply fits_nothing; reflexivity.
  - apply (inv_u_prov s _ i (if ok then PIdle e None else PNone) I); try reflexivity.
    destruct ok; apply fits_nothing; reflexivity.
  - (* offer, existing usage file *)
    apply (inv_u_prov s _ i (POpened e u h) I); try reflexivity.
    destruct (A i) as (_ & _ & _ & O & _). rewrite P in O. cbn in O.
    unfold fits; cbn. split; [congruence|]. split; [discriminate|]. split; [discriminate|]. split; [exact O|discriminate].
  - (* offer, new usage file *)
    split; cbn [prov cons].
    + intros j. upd i j.
      * destruct (A i) as (_ & _ & _ & O & _). rewrite P in O. cbn in O.
        unfold fits; cbn. split; [congruence|]. split; [discriminate|]. split; [discriminate|]. split; [exact O|discriminate].
      * apply (others_nothing s i j IE); [exists e; rewrite P; reflexivity|assumption].
    + intros c. destruct (B c) as [R G]. split; cbn [upath spath].
      * intros u H. apply R in H. congruence.
      * exact G.
  - (* lock the usage file *)
    destruct (A i) as (R & _ & _ & O & _). rewrite P in R, O. cbn in R, O.
    apply (inv_u_prov s _ i (if ok then PRecreate e u h else PReuse e u h) I); try reflexivity.
    destruct ok; unfold fits; cbn.
    + split; [exact R|]. split; [|split; [discriminate|split; [exact O|discriminate]]].
      intros u' H c. injection H as <-. apply F.
    + split; [exact R|]. split; [discriminate|]. split; [discriminate|]. split; [exact O|discriminate].
  - (* clear *)
    destruct (A i) as (R & X & _). rewrite P in R, X. cbn in R, X.
    split; cbn [prov cons].
    + intros j. upd i j.
      * unfold fits; cbn. split; [exact R|]. split; [exact X|]. split; [discriminate|]. split; [discriminate|reflexivity].
      * apply (others_nothing s i j IE); [exists e; rewrite P; reflexivity|assumption].
    + intros c. destruct (B c) as [Rc G]. split; cbn [upath spath]; [exact Rc|].
      intros u' g H. exfalso. rewrite H in Rc. assert (upath s = Some u') by (apply Rc; reflexivity).
      assert (upath s = Some u) by (apply R; reflexivity).
      apply (X u eq_refl c). rewrite H. cbn. congruence.
  - apply (inv_u_prov s _ i PAborted I); try reflexivity. apply fits_nothing; reflexivity.
  - (* create the object *)
    destruct (A i) as (R & _). rewrite P in R. cbn in R.
    split; cbn [prov cons].
    + intros j. upd i j.
      * destruct ok; unfold fits; cbn.
        -- split; [exact R|]. split; [discriminate|]. split; [discriminate|]. split; [congruence|discriminate].
        -- split; [discriminate|]. split; [discriminate|]. split; [discriminate|]. split; [congruence|discriminate].
      * apply (others_nothing s i j IE); [exists e; rewrite P; reflexivity|assumption].
    + intros c. destruct (B c) as [Rc G]. split; cbn [upath spath]; [exact Rc|].
      intros u' g H. apply G in H. congruence.
  - apply (inv_u_prov s _ i (PIdle e None) I); try reflexivity. apply fits_nothing; reflexivity.
  - (* reuse *)
    destruct (A i) as (R & _ & _ & O & _). rewrite P in R, O. cbn in R, O.
    apply (inv_u_prov s _ i (POffered e u g) I); try reflexivity.
    unfold fits; cbn. split; [exact R|]. split; [discriminate|]. split; [discriminate|]. split; [|discriminate].
    intros x H. injection H as <-. destruct h as [y|]; [|exact E]. injection E as <-. apply O. reflexivity.
  - apply (inv_u_prov s _ i (PIdle e None) I); try reflexivity. apply fits_nothing; reflexivity.
  - (* stop: try to lock *)
    destruct (A i) as (R & _ & _ & O & _). rewrite P in R, O. cbn in R, O.
    apply (inv_u_prov s _ i (if ok then PStopX e u g else PIdle e (Some g)) I); try reflexivity.
    destruct ok; unfold fits; cbn.
    + split; [exact R|]. split; [intros u' H c; injection H as <-; apply F|].
      split; [|split; [exact O|discriminate]].
      intros _ c. destruct (B c) as [Rc _]. destruct F as [_ F]. specialize (F c). specialize (OK c).
      destruct (cons s c) as [|v|v|v x] eqn:Ec; [reflexivity|destruct (OK v); reflexivity| |].
      * exfalso. apply F. cbn. f_equal. assert (upath s = Some v) by (apply Rc; reflexivity).
        assert (upath s = Some u) by (apply R; reflexivity). congruence.
      * exfalso. apply F. cbn. f_equal. assert (upath s = Some v) by (apply Rc; reflexivity).
        assert (upath s = Some u) by (apply R; reflexivity). congruence.
    + split; [discriminate|]. split; [discriminate|]. split; [discriminate|]. split; [exact O|discriminate].
  - (* stop: remove *)
    destruct (A i) as (R & X & T & _). rewrite P in R, X, T. cbn in R, X, T.
    split; cbn [prov cons].
    + intros j. upd i j.
      * unfold fits; cbn. split; [exact R|]. split; [exact X|]. split; [exact T|]. split; [discriminate|reflexivity].
      * apply (others_nothing s i j IE); [exists e; rewrite P; reflexivity|assumption].
    + intros c. rewrite (T eq_refl c). split; discriminate.
  - (* stop: unlock *)
    destruct (A i) as (R & _ & T & _ & K). rewrite P in R, T, K. cbn in R, T, K.
    apply (inv_u_prov s _ i (PStopC e u) I); try reflexivity.
    unfold fits; cbn. split; [exact R|]. split; [discriminate|]. split; [exact T|]. split; [discriminate|exact K].
  - (* stop: close and unlink *)
    destruct (A i) as (_ & _ & T & _). rewrite P in T. cbn in T.
    split; cbn [prov cons].
    + intros j. upd i j; [apply fits_nothing; reflexivity|].
      apply (others_nothing s i j IE); [exists e; rewrite P; reflexivity|assumption].
    + intros c. rewrite (T eq_refl c). split; discriminate.
  - apply (inv_u_prov s _ i (PDestroying e) I); try reflexivity. apply fits_nothing; reflexivity.
  - apply (inv_u_prov s _ i PNone I); try reflexivity. apply fits_nothing; reflexivity.
  - apply (inv_u_prov s _ i PNone I); try reflexivity. apply fits_nothing; reflexivity.
  - (* attach: open *)
    split; cbn [prov cons set_c].
    + intros j. destruct (A j) as (R & X & T & O & K). unfold fits; cbn [upath spath set_c cons].
      split; [exact R|]. split; [|split; [|split; [exact O|exact K]]].
      * intros u' H c. upd i c; [discriminate|]. apply X, H.
      * intros H. rewrite OK in H. discriminate.
    + intros c. upd i c; [split; [cbn; congruence|discriminate]|]. apply B.
  - (* attach: lock *)
    split; cbn [prov cons set_c].
    + intros j. destruct (A j) as (R & X & T & O & K). unfold fits; cbn [upath spath set_c cons].
      split; [exact R|]. split; [|split; [|split; [exact O|exact K]]].
      * intros u' H c. upd i c; [|apply X, H]. destruct ok; [|discriminate]. cbn. intros Q.
        injection Q as <-. exact (F j H).
      * intros H. rewrite (T H i) in P. discriminate.
    + intros c. destruct (B i) as [Rc _]. rewrite P in Rc. upd i c; [|apply B].
      destruct ok; split; [exact Rc|discriminate|discriminate|discriminate].
  - (* attach: shared memory *)
    split; cbn [prov cons set_c].
    + intros j. destruct (A j) as (R & X & T & O & K). unfold fits; cbn [upath spath set_c cons].
      split; [exact R|]. split; [|split; [|split; [exact O|exact K]]].
      * intros u' H c. specialize (X u' H). upd i c; [|apply X]. cbn. intros Q. injection Q as <-.
        apply (X i). rewrite P. reflexivity.
      * intros H. rewrite (T H i) in P. discriminate.
    + intros c. destruct (B i) as [Rc _]. rewrite P in Rc. upd i c; [|apply B].
      split; [exact Rc|]. intros v x H. injection H as <- <-. exact E.
  - split; cbn [prov cons set_c].
    + intros j. destruct (A j) as (R & X & T & O & K). unfold fits; cbn [upath spath set_c cons].
      split; [exact R|]. split; [|split; [|split; [exact O|exact K]]].
      * intros u' H c. upd i c; [discriminate|apply X, H].
      * intros H c. upd i c; [reflexivity|apply (T H)].
    + intros c. upd i c; [split; discriminate|apply B].
  - split; cbn [prov cons set_c].
    + intros j. destruct (A j) as (R & X & T & O & K). unfold fits; cbn [upath spath set_c cons].
      split; [exact R|]. split; [|split; [|split; [exact O|exact K]]].
      * intros u' H c. upd i c; [discriminate|apply X, H].
      * intros H c. upd i c; [reflexivity|apply (T H)].
    + intros c. upd i c; [split; discriminate|apply B].
  - split; cbn [prov cons set_c].
    + intros j. destruct (A j) as (R & X & T & O & K). unfold fits; cbn [upath spath set_c cons].
      split; [exact R|]. split; [|split; [|split; [exact O|exact K]]].
      * intros u' H c. upd i c; [discriminate|apply X, H].
      * intros H c. upd i c; [reflexivity|apply (T H)].
    + intros c. upd i c; [split; discriminate|apply B].
Qed.

Lemma inv_u_reach s : reach apart s -> inv_e s /\ inv_u s.
Proof.
  intros R. assert (IE := inv_e_reach apart s (fun _ _ H => proj1 H) R). split; [exact IE|].
  induction R as [|s l s' R IH O S].
  - split; intros i; [apply fits_nothing; reflexivity|split; discriminate].
  - assert (IE0 := inv_e_reach apart s (fun _ _ H => proj1 H) R).
    exact (inv_u_step s l s' IE0 (IH IE0) O S).
Qed.

(** C51, first half: no step - of a provider offering, stopping, starting, dying, of a consumer -
    removes or replaces a shared memory object while a consumer uses it. *)
Theorem C51_in_use_kept_partial :
  forall s l s' c g, reach apart s -> apart s l -> step s l s' ->
  uses s c g -> uses s' c g -> present s g /\ present s' g.
Proof.
  intros s l s' c g R O S [u U] [u' U'].
  destruct (inv_u_reach s R) as [_ [_ B]].
  destruct (inv_u_reach s' (reach_step _ _ _ _ R O S)) as [_ [_ B']].
  split; [exact (proj2 (B c) _ _ U)|exact (proj2 (B' c) _ _ U')].
Qed.

(** Even in the very step in which the last consumer stops using it nothing is removed. *)
Theorem C51_in_use_not_removed_partial :
  forall s l s' c g, reach apart s -> apart s l -> step s l s' -> uses s c g -> present s' g.
Proof.
  intros s l s' c g R O S [u U].
  destruct (inv_u_reach s R) as [_ [A B]].
  assert (P : spath s = Some g) by exact (proj2 (B c) _ _ U).
  unfold present. inversion S; subst; cbn; try exact P.
  - exfalso. destruct (A i) as (R' & X & _). rewrite H in R', X.
    apply (X u0 eq_refl c). rewrite U. cbn. f_equal.
    assert (upath s = Some u) by (apply (proj1 (B c)); rewrite U; reflexivity).
    assert (upath s = Some u0) by (apply R'; reflexivity). congruence.
  - congruence.
  - exfalso. destruct (A i) as (_ & _ & T & _). rewrite H in T. rewrite (T eq_refl c) in U. discriminate.
Qed.

(** The provider and every consumer use the same object, and new consumers get it too. *)
Theorem C51_same_object_partial :
  forall s i c g g', reach apart s -> offers s i g -> uses s c g' -> g = g' /\ present s g.
Proof.
  intros s i c g g' R (e & u & P) (u' & U).
  destruct (inv_u_reach s R) as [_ [A B]].
  destruct (A i) as (_ & _ & _ & O & _). rewrite P in O.
  assert (X : spath s = Some g) by (apply O; reflexivity).
  assert (Y : spath s = Some g') by exact (proj2 (B c) _ _ U).
  split; [congruence|exact X].
Qed.

(** C51, second half: if no consumer is attached, StopOfferService gets the lock, i.e. decides to
    remove; ... *)
Theorem C51_decides_removal_when_unused :
  forall s i g ok s1, reach apart s -> offers s i g -> (forall c, cons s c = CNone) ->
  step s (PStop i ok) s1 -> ok = true /\ exists e u, prov s1 i = PStopX e u g.
Proof.
  intros s i g ok s1 R (e & u & P) N S.
  destruct (inv_u_reach s R) as [(_ & B & _) _].
  assert (L : live s i) by (exists e; rewrite P; reflexivity).
  inversion S as [| | | | | | | | | | | |s0 i0 e0 u0 g0 ok0 P0 F| | | | | | | | | | | |]; subst.
  assert (E : e0 = e /\ u0 = u /\ g0 = g) by (rewrite P0 in P; repeat split; congruence).
  destruct E as (-> & -> & ->).
  assert (K : ok = true).
  { destruct ok; [reflexivity|]. exfalso. apply F. split.
    - intros j H. assert (j = i) by (apply B; [exact (holds_usage_live _ _ _ H)|exact L]).
      subst j. rewrite P in H. discriminate.
    - intros j. rewrite N. discriminate. }
  split; [exact K|]. subst ok. exists e, u. cbn. apply fupd_eq.
Qed.

(** ... and once it has completed, whatever other processes did meanwhile, neither the shared memory
    nor the usage marker file is left. *)
Theorem C51_removal_complete :
  forall s i e u ok s', reach apart s -> prov s i = PStopC e u -> step s (PGo i ok) s' ->
  spath s' = None /\ upath s' = None /\ prov s' i = PIdle e None.
Proof.
  intros s i e u ok s' R P S. destruct (inv_u_reach s R) as [_ [A _]].
  destruct (A i) as (_ & _ & _ & _ & K). rewrite P in K.
  inversion S; subst; try congruence. cbn. split; [apply K; reflexivity|]. split; [reflexivity|].
  rewrite fupd_eq. congruence.
Qed.

(** A removal in progress always proceeds: its steps are enabled. *)
Theorem C51_removal_proceeds :
  forall s i, stopping (prov s i) = true ->
  exists s', step s (PGo i true) s' /\ (stopping (prov s' i) = true \/ exists e, prov s' i = PIdle e None).
Proof.
  intros s i T. destruct (prov s i) as [| | | | | | | |e u g|e u|e u| |] eqn:P; try discriminate T.
  - eexists. split; [exact (s_stop_remove _ _ _ _ _ P)|]. left. cbn. rewrite fupd_eq. reflexivity.
  - eexists. split; [exact (s_stop_unlock _ _ _ _ P)|]. left. cbn. rewrite fupd_eq. reflexivity.
  - eexists. split; [exact (s_stop_close _ _ _ _ P)|]. right. exists e. cbn. rewrite fupd_eq. reflexivity.
Qed.

(** * C70: offering again *)

(** The provider never stopped offering while a consumer was attached, and no OfferService failed
    after the shared memory had been created. *)
Definition never_kept (s : st) (l : label) : Prop :=
  match l with
  | PStop _ ok => ok = true
  | PGo i ok => (exists e u, prov s i = PCleared e u) -> spath s = None -> ok = true
  | _ => True
  end.

Theorem C70_offer_survives_partial :
  forall s i, reach never_kept s -> prov s i <> PAborted.
Proof.
  intros s i R.
  assert (Inv : forall i, prov s i <> PAborted /\
     match prov s i with PIdle _ h | POpened _ _ h | PRecreate _ _ h | PReuse _ _ h => h = None | _ => True end).
  { clear i. induction R as [|s l s' R IH O S]; [intros i; split; [discriminate|exact Logic.I]|].
    intros j. destruct S as [s i e P E|s i P E|s i e ok P F|s i e h u P E|s i e h P E|s i e u h ok P F|s i e u P
    |s i e u g P|s i e u ok P E|s i e u g P E|s i e u h g P E|s i e u P E|s i e u g ok P F|s i e u g P
    |s i e u P|s i e u P|s i e h P|s i e P|s i P|s i u P E|s i u ok P F|s i u g P E|s i u P E|s i u g P|s i P];
    cbn [prov set_p set_c]; try exact (IH j); (upd i j; [|exact (IH j)]);
    try (split; [discriminate|exact Logic.I]); try (split; [discriminate|reflexivity]).
    - destruct ok; (split; [discriminate|exact Logic.I || reflexivity]).
    - split; [discriminate|]. destruct (IH i) as [_ H]. rewrite P in H. exact H.
    - split; [discriminate|]. destruct (IH i) as [_ H]. rewrite P in H. exact H.
    - destruct (IH i) as [_ H]. rewrite P in H. destruct ok; (split; [discriminate|exact H]).
    - exfalso. destruct (IH i) as [_ H]. rewrite P in H. discriminate.
    - cbn in O. rewrite O; [|exists e, u; exact P|exact E]. split; [discriminate|exact Logic.I].
    - cbn in O. rewrite O. split; [discriminate|exact Logic.I]. }
  apply Inv.
Qed.

(** * Runs: refutations and non-vacuity *)

Ltac each :=
  let j := fresh "j" in intros j;
  try (do 5 (destruct j as [|j]; [cbn; first [discriminate|reflexivity|intros; discriminate]|]);
       cbn; first [discriminate|reflexivity|intros; discriminate]).
Ltac not_free :=
  let F := fresh "F" in cbn; intros F;
  first [ apply (F 0); reflexivity | apply (F 1); reflexivity
        | destruct F as [_ F]; first [apply (F 0); reflexivity | apply (F 1); reflexivity] ].
Ltac outc := cbn [outcome]; first [ solve [each] | solve [split; each] | solve [not_free] ].
Ltac okay := first [ exact Logic.I | solve [cbn; each] | solve [split; cbn; first [exact Logic.I|each]] | solve [cbn; first [reflexivity|intros; reflexivity]] ].
(** [run R lem]: extend the reachable state R by one step *)
Tactic Notation "run" hyp(R) uconstr(lem) :=
  let X := fresh "X" in let Y := fresh "Y" in let R' := fresh "R" in
  match type of R with reach ?ok ?s =>
    eassert (X : step s _ _) by (eapply lem; first [reflexivity|outc|discriminate]);
    match type of X with step _ ?l ?s' =>
      assert (Y : ok s l) by okay;
      pose proof (reach_step ok s l s' R Y X) as R'; clear X Y R; rename R' into R
    end
  end;
  cbn [set_p set_c epath upath spath fresh prov cons] in R.

Ltac start ok := assert (R := reach_init ok); unfold init in R.

(** Two providers: provider 1 opens the existence marker file of provider 0, which then is destroyed;
    provider 1 gets the lock on the file whose path provider 0 unlinks; provider 2 creates a new
    file. Both offer the instance. *)
Theorem C52_two_providers_refuted :
  exists s, reach any_schedule s /\ offers s 1 3 /\ live s 2 /\ ~ present s 3.
Proof.
  start any_schedule.
  run R (s_create_new _ 0).
  run R (s_create_lock _ 0 0 true).
  run R (s_create_open _ 1 0).
  run R (s_destroy_unlock _ 0 0 None).
  run R (s_create_lock _ 1 0 true).
  run R (s_destroy_close _ 0 0).
  run R (s_create_new _ 2).
  run R (s_create_lock _ 2 1 true).
  run R (s_offer_new _ 1 0 None).
  run R (s_offer_lock _ 1 0 2 None true).
  run R (s_clear _ 1 0 2).
  run R (s_recreate _ 1 0 2 true).
  run R (s_offer_open _ 2 1 None 2).
  run R (s_offer_lock _ 2 1 2 None true).
  run R (s_clear _ 2 1 2).
  eexists. split; [exact R|]. split; [exists 0, 2; reflexivity|]. split; [exists 1; reflexivity|].
  intros H. discriminate H.
Qed.

(** The two providers both offer. *)
Theorem C52_both_offer_refuted :
  exists s g g', reach any_schedule s /\ offers s 1 g /\ offers s 2 g' /\ g <> g'.
Proof.
  start any_schedule.
  run R (s_create_new _ 0).
  run R (s_create_lock _ 0 0 true).
  run R (s_create_open _ 1 0).
  run R (s_destroy_unlock _ 0 0 None).
  run R (s_create_lock _ 1 0 true).
  run R (s_destroy_close _ 0 0).
  run R (s_create_new _ 2).
  run R (s_create_lock _ 2 1 true).
  run R (s_offer_new _ 1 0 None).
  run R (s_offer_lock _ 1 0 2 None true).
  run R (s_clear _ 1 0 2).
  run R (s_recreate _ 1 0 2 true).
  run R (s_offer_open _ 2 1 None 2).
  run R (s_offer_lock _ 2 1 2 None true).
  run R (s_clear _ 2 1 2).
  run R (s_recreate _ 2 1 2 true).
  eexists. exists 3, 4. split; [exact R|]. split; [exists 0, 2; reflexivity|].
  split; [exists 1, 2; reflexivity|discriminate].
Qed.

(** C51: a consumer opens the usage marker file just before StopOfferService removes it; it then
    holds its lock on a file nobody finds any more. After the next OfferService it uses the new
    shared memory unnoticed, and the next StopOfferService removes that under its feet. *)
Theorem C51_attach_race_refuted :
  exists s l s' c g, reach creation_apart s /\ step s l s' /\ uses s c g /\ uses s' c g
    /\ present s g /\ ~ present s' g.
Proof.
  start creation_apart.
  run R (s_create_new _ 0).
  run R (s_create_lock _ 0 0 true).
  run R (s_offer_new _ 0 0 None).
  run R (s_offer_lock _ 0 0 1 None true).
  run R (s_clear _ 0 0 1).
  run R (s_recreate _ 0 0 1 true).
  run R (s_attach_open _ 0 1).
  run R (s_stop _ 0 0 1 2 true).
  run R (s_stop_remove _ 0 0 1 2).
  run R (s_stop_unlock _ 0 0 1).
  run R (s_attach_lock _ 0 1 true).
  run R (s_stop_close _ 0 0 1).
  run R (s_offer_new _ 0 0 None).
  run R (s_offer_lock _ 0 0 3 None true).
  run R (s_clear _ 0 0 3).
  run R (s_recreate _ 0 0 3 true).
  run R (s_attach_shm _ 0 1 4).
  run R (s_stop _ 0 0 3 4 true).
  eexists. exists (PGo 0 true). eexists. exists 0, 4. split; [exact R|].
  split; [eapply (s_stop_remove _ 0 0 3 4); reflexivity|].
  split; [exists 1; reflexivity|]. split; [exists 1; reflexivity|]. split; [reflexivity|]. intros H. discriminate H.
Qed.

(** C70: offer - a consumer attaches - stop - the consumer detaches - offer: the provider's process
    terminates, although no two calls overlap. *)
Theorem C70_reoffer_aborts_refuted :
  exists s i, reach apart s /\ prov s i = PAborted.
Proof.
  start apart.
  run R (s_create_new _ 0).
  run R (s_create_lock _ 0 0 true).
  run R (s_offer_new _ 0 0 None).
  run R (s_offer_lock _ 0 0 1 None true).
  run R (s_clear _ 0 0 1).
  run R (s_recreate _ 0 0 1 true).
  run R (s_attach_open _ 0 1).
  run R (s_attach_lock _ 0 1 true).
  run R (s_attach_shm _ 0 1 2).
  run R (s_stop _ 0 0 1 2 false).
  run R (s_detach _ 0 1 2).
  run R (s_offer_open _ 0 0 (Some 2) 1).
  run R (s_offer_lock _ 0 0 1 (Some 2) true).
  run R (s_clear_abort _ 0 0 1 2).
  eexists. exists 0. split; [exact R|reflexivity].
Qed.

(** C70: an OfferService that fails after the shared memory was created, retried. *)
Theorem C70_retry_aborts_refuted :
  exists s i, reach apart s /\ prov s i = PAborted /\ forall c, cons s c = CNone.
Proof.
  start apart.
  run R (s_create_new _ 0).
  run R (s_create_lock _ 0 0 true).
  run R (s_offer_new _ 0 0 None).
  run R (s_offer_lock _ 0 0 1 None true).
  run R (s_clear _ 0 0 1).
  run R (s_recreate _ 0 0 1 false).
  run R (s_offer_open _ 0 0 (Some 2) 1).
  run R (s_offer_lock _ 0 0 1 (Some 2) true).
  run R (s_clear_abort _ 0 0 1 2).
  eexists. exists 0. split; [exact R|]. split; [reflexivity|]. intros c. reflexivity.
Qed.

(** An OfferService fails although nobody uses shared memory: the provider died while offering, and
    a consumer is just trying to attach (in vain). *)
Theorem C70_offer_fails_refuted :
  exists s s', reach apart s /\ (forall c g, ~ uses s c g) /\ prov s 0 = PReuse 0 1 None
    /\ step s (PGo 0 false) s' /\ prov s' 0 = PIdle 0 None.
Proof.
  start apart.
  run R (s_create_new _ 0).
  run R (s_create_lock _ 0 0 true).
  run R (s_offer_new _ 0 0 None).
  run R (s_offer_lock _ 0 0 1 None true).
  run R (s_pcrash _ 0).
  run R (s_attach_open _ 0 1).
  run R (s_attach_lock _ 0 1 true).
  run R (s_create_open _ 0 0).
  run R (s_create_lock _ 0 0 true).
  run R (s_offer_open _ 0 0 None 1).
  run R (s_offer_lock _ 0 0 1 None false).
  eexists. eexists. split; [exact R|]. split.
  - intros c g [u H]. cbn in H. destruct c as [|c]; discriminate H.
  - split; [reflexivity|]. split; [eapply (s_reuse_fails _ 0 0 1); reflexivity|reflexivity].
Qed.

(** Non-vacuity: a provider offers, two consumers attach, the provider dies, is restarted and offers
    again with the object both still use. *)
Example C51_example :
  exists s, reach apart s /\ offers s 1 2 /\ uses s 0 2 /\ uses s 1 2.
Proof.
  start apart.
  run R (s_create_new _ 0).
  run R (s_create_lock _ 0 0 true).
  run R (s_offer_new _ 0 0 None).
  run R (s_offer_lock _ 0 0 1 None true).
  run R (s_clear _ 0 0 1).
  run R (s_recreate _ 0 0 1 true).
  run R (s_attach_open _ 0 1).
  run R (s_attach_open _ 1 1).
  run R (s_attach_lock _ 0 1 true).
  run R (s_attach_lock _ 1 1 true).
  run R (s_attach_shm _ 0 1 2).
  run R (s_pcrash _ 0).
  run R (s_create_open _ 1 0).
  run R (s_create_lock _ 1 0 true).
  run R (s_attach_shm _ 1 1 2).
  run R (s_offer_open _ 1 0 None 1).
  run R (s_offer_lock _ 1 0 1 None false).
  run R (s_reuse _ 1 0 1 None 2).
  eexists. split; [exact R|]. split; [exists 0, 1; reflexivity|]. split; exists 1; reflexivity.
Qed.

(** Non-vacuity of the removal theorems and of C70's condition. *)
Example C51_removal_example :
  exists s e u, reach apart s /\ prov s 0 = PStopC e u.
Proof.
  start apart.
  run R (s_create_new _ 0).
  run R (s_create_lock _ 0 0 true).
  run R (s_offer_new _ 0 0 None).
  run R (s_offer_lock _ 0 0 1 None true).
  run R (s_clear _ 0 0 1).
  run R (s_recreate _ 0 0 1 true).
  run R (s_stop _ 0 0 1 2 true).
  run R (s_stop_remove _ 0 0 1 2).
  run R (s_stop_unlock _ 0 0 1).
  eexists. exists 0, 1. split; [exact R|reflexivity].
Qed.

Print Assumptions C52_single_provider_partial.
Print Assumptions C51_in_use_not_removed_partial.
Print Assumptions C51_removal_complete.
Print Assumptions C70_offer_survives_partial.
