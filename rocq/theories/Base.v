(** Shared definitions: machine word sizes, function update, counting. *)
From Coq Require Export List Bool Arith NArith ZArith Lia.
From Coq Require Export ZifyBool ZifyNat ZifyN.
Export ListNotations.

Arguments N.add : simpl never.
Arguments N.sub : simpl never.
Arguments N.mul : simpl never.
Arguments N.modulo : simpl never.
Arguments N.div : simpl never.
Arguments N.pow : simpl never.
Arguments N.of_nat : simpl never.
Arguments Z.add : simpl never.
Arguments Z.sub : simpl never.
Arguments Z.mul : simpl never.
Arguments Z.modulo : simpl never.
Arguments Z.div : simpl never.
Arguments Z.pow : simpl never.

(** 2^16, 2^32, 2^64: ranges of std::uint16_t, std::uint32_t, std::uint64_t *)
Definition two16 : N := 65536%N.
Definition two32 : N := 4294967296%N.
Definition two64 : N := 18446744073709551616%N.

(** Point update of an array modelled as a total function. *)
Definition fupd {A} (f : nat -> A) (i : nat) (v : A) : nat -> A :=
  fun j => if Nat.eqb j i then v else f j.

Lemma fupd_eq {A} (f : nat -> A) i v : fupd f i v i = v.
Proof. unfold fupd; rewrite Nat.eqb_refl; reflexivity. Qed.

Lemma fupd_neq {A} (f : nat -> A) i j v : j <> i -> fupd f i v j = f j.
Proof. unfold fupd; intros H; destruct (Nat.eqb_spec j i); congruence. Qed.

(** Number of indices below [n] satisfying [p]. *)
Fixpoint countb (p : nat -> bool) (n : nat) : nat :=
  match n with
  | O => O
  | S k => (if p k then 1 else 0) + countb p k
  end.

Lemma countb_le p n : countb p n <= n.
Proof. induction n as [|n IH]; cbn [countb]; [lia|destruct (p n); lia]. Qed.

Lemma countb_ext p q n : (forall i, i < n -> p i = q i) -> countb p n = countb q n.
Proof.
  induction n as [|n IH]; cbn [countb]; intros H; [reflexivity|].
  rewrite H by lia. rewrite IH; [reflexivity|intros i Hi; apply H; lia].
Qed.

Lemma countb_pos p n i : i < n -> p i = true -> 0 < countb p n.
Proof.
  induction n as [|n IH]; cbn [countb]; intros Hi Hp; [lia|].
  destruct (Nat.eq_dec i n) as [->|Hne]; [rewrite Hp; lia|].
  assert (0 < countb p n) by (apply IH; [lia|exact Hp]). lia.
Qed.

Lemma countb_zero p n : countb p n = 0 <-> (forall i, i < n -> p i = false).
Proof.
  split.
  - intros H i Hi. destruct (p i) eqn:E; [|reflexivity].
    pose proof (countb_pos p n i Hi E). lia.
  - induction n as [|n IH]; cbn [countb]; intros H; [reflexivity|].
    rewrite H by lia. rewrite IH; [reflexivity|]. intros; apply H; lia.
Qed.

(** Changing the predicate at one point changes the count accordingly. *)
Lemma countb_change p q n i :
  i < n -> (forall j, j < n -> j <> i -> q j = p j) ->
  countb q n + (if p i then 1 else 0) = countb p n + (if q i then 1 else 0).
Proof.
  induction n as [|n IH]; cbn [countb]; intros Hi H; [lia|].
  destruct (Nat.eq_dec i n) as [->|Hne].
  - rewrite (countb_ext q p n) by (intros; apply H; lia). lia.
  - rewrite (H n) by lia.
    assert (IH' := IH ltac:(lia) ltac:(intros; apply H; lia)). lia.
Qed.

Lemma countb_set_true p q n i :
  i < n -> p i = false -> q i = true -> (forall j, j < n -> j <> i -> q j = p j) ->
  countb q n = S (countb p n).
Proof. intros Hi Hp Hq H. pose proof (countb_change p q n i Hi H) as E. rewrite Hp, Hq in E. lia. Qed.

Lemma countb_set_false p q n i :
  i < n -> p i = true -> q i = false -> (forall j, j < n -> j <> i -> q j = p j) ->
  S (countb q n) = countb p n.
Proof. intros Hi Hp Hq H. pose proof (countb_change p q n i Hi H) as E. rewrite Hp, Hq in E. lia. Qed.

Lemma countb_same p q n i :
  i < n -> p i = q i -> (forall j, j < n -> j <> i -> q j = p j) ->
  countb q n = countb p n.
Proof. intros Hi Hp H. pose proof (countb_change p q n i Hi H) as E. rewrite Hp in E. lia. Qed.
