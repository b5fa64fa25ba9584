(** C24: LinearSearchMap is a finite map in which the first insertion of a key wins and which keeps the
    order of insertion. *)
From Verif Require Import Base MapModel.

(** * Specification: a function from keys to values and the keys in the order of their insertion *)
Section Spec.
Variable K V : Type.
Variable eqv : K -> K -> bool.   (* the same key? *)
Record amap := mkA { val : K -> option V; order : list K }.

Definition put (f : K -> option V) (k : K) (v : V) : K -> option V := fun k' => if eqv k k' then Some v else f k'.

Definition astep (cap : nat) (a : amap) (o : mop K V) : option (amap * mres K V) :=
  match o with
  | MEmplace _ _ k v =>
      match val a k with
      | Some w => Some (a, MInserted _ _ (Some w) false)
      | None => if (length (order a) <? cap)%nat
                then Some (mkA (put (val a) k v) (order a ++ [k]), MInserted _ _ (Some v) true)
                else None
      end
  | MAssign _ _ k v => match val a k with Some _ => Some (mkA (put (val a) k v) (order a), MDone _ _) | None => None end
  | MFind _ _ k => Some (a, MFound _ _ (val a k))
  | MAt _ _ k => match val a k with Some v => Some (a, MValue _ _ v) | None => None end
  | MSize _ _ => Some (a, MNum _ _ (length (order a)))
  | MElements _ _ => Some (a, MList _ _ (flat_map (fun k => match val a k with Some v => [(k, v)] | None => [] end) (order a)))
  end.
Fixpoint arun (cap : nat) (a : amap) (os : list (mop K V)) : list (mres K V) * bool * amap :=
  match os with
  | [] => ([], false, a)
  | o :: os => match astep cap a o with
               | Some (a', r) => let '(rs, t, a'') := arun cap a' os in (r :: rs, t, a'')
               | None => ([], true, a)
               end
  end.
Definition aempty : amap := mkA (fun _ => None) [].

Definition equivalence : Prop :=
  (forall x, eqv x x = true) /\ (forall x y, eqv x y = eqv y x) /\ (forall x y z, eqv x y = true -> eqv y z = true -> eqv x z = true).
End Spec.

Section Proofs.
Variable K V : Type.
Variable eqv : K -> K -> bool.
Hypothesis EQ : equivalence K eqv.

Lemma eqv_refl x : eqv x x = true. Proof. apply EQ. Qed.
Lemma eqv_sym x y : eqv x y = eqv y x. Proof. apply EQ. Qed.
Lemma eqv_swap x y z : eqv x y = true -> eqv x z = eqv y z.
Proof.
  intros E. destruct EQ as (R & S & T). destruct (eqv x z) eqn:A, (eqv y z) eqn:B; auto.
  - rewrite <- B. symmetry. apply T with x; auto. rewrite S. exact E.
  - rewrite <- A. apply T with y; auto.
Qed.

Fixpoint distinct (l : list (K * V)) : Prop :=
  match l with [] => True | (k, _) :: l => (forall k' v', In (k', v') l -> eqv k k' = false) /\ distinct l end.

Fixpoint lookup (l : list (K * V)) (key : K) : option V :=
  match l with [] => None | (k, v) :: l => if eqv k key then Some v else lookup l key end.

Lemma find_from_spec l key : forall i,
  (lookup l key = None /\ find_from K V eqv l key i = i + length l) \/
  (exists j k v, lookup l key = Some v /\ find_from K V eqv l key i = i + j /\ nth_error l j = Some (k, v) /\ j < length l /\ eqv k key = true).
Proof.
  induction l as [|[k v] l IH]; intros i; cbn [lookup find_from length].
  - left. split; [reflexivity|lia].
  - destruct (eqv k key) eqn:E.
    + right. exists 0, k, v. repeat split; auto; lia.
    + destruct (IH (S i)) as [[A B]|(j & k' & v' & A & B & C & D & F)].
      * left. split; [exact A|]. rewrite B. lia.
      * right. exists (S j), k', v'. repeat split; auto; lia.
Qed.

Lemma lookup_app l k v key : lookup (l ++ [(k, v)]) key = match lookup l key with Some w => Some w | None => if eqv k key then Some v else None end.
Proof. induction l as [|[a b] l IH]; cbn [lookup app]; [reflexivity|]. destruct (eqv a key); auto. Qed.

Lemma lookup_in l key k v : In (k, v) l -> eqv k key = true -> lookup l key <> None.
Proof.
  induction l as [|[a b] l IH]; cbn [lookup In]; [tauto|]. intros [H|H] E; [injection H as -> ->; rewrite E; discriminate|].
  destruct (eqv a key); [discriminate|auto].
Qed.

Lemma lookup_none_in l key : lookup l key = None -> forall k v, In (k, v) l -> eqv k key = false.
Proof. intros N k v I. destruct (eqv k key) eqn:E; [|reflexivity]. destruct (lookup_in l key k v I E N). Qed.

Lemma distinct_app l k v : distinct l -> lookup l k = None -> distinct (l ++ [(k, v)]).
Proof.
  induction l as [|[a b] l IH]; cbn [distinct app]; [intros _ _; split; [intros ? ? []|exact I]|].
  intros [D1 D2] N. cbn [lookup] in N. destruct (eqv a k) eqn:E; [discriminate|]. split; [|auto].
  intros k' v' I. apply in_app_or in I. destruct I as [I|[I|[]]]; [eauto|]. injection I as <- <-. exact E.
Qed.

Lemma set_value_spec l j k w v : nth_error l j = Some (k, w) -> distinct l ->
  distinct (set_value K V l j v) /\ map fst (set_value K V l j v) = map fst l /\
  (forall key, lookup (set_value K V l j v) key = if eqv k key then Some v else lookup l key).
Proof.
  revert j. induction l as [|[a b] l IH]; intros j; [destruct j; discriminate|]. destruct j as [|j]; cbn [nth_error set_value].
  - intros E [D1 D2]. injection E as -> ->. split; [split; auto|]. split; [reflexivity|]. intros key. cbn [lookup]. destruct (eqv k key); reflexivity.
  - intros E [D1 D2]. destruct (IH j E D2) as (A & B & C). split; [|split].
    + split; [|exact A]. intros k' v' I. assert (X : In k' (map fst l)) by (rewrite <- B; apply in_map_iff; exists (k', v'); auto).
      apply in_map_iff in X. destruct X as ([x y] & <- & I'). eapply D1; eauto.
    + cbn [map fst]. rewrite B. reflexivity.
    + intros key. cbn [lookup]. rewrite C. destruct (eqv a key) eqn:F; [|reflexivity].
      destruct (eqv k key) eqn:G; [|reflexivity]. exfalso. assert (X : eqv a k = false) by (apply (D1 k w); apply nth_error_In in E; exact E).
      rewrite (eqv_sym k key) in G. destruct EQ as (_ & _ & T). rewrite (T a key k F G) in X. discriminate.
Qed.

Definition rel (m : lmap K V) (a : amap K V) : Prop :=
  distinct (storage K V m) /\ (forall key, val K V a key = lookup (storage K V m) key) /\ order K V a = map fst (storage K V m) /\ length (storage K V m) <= cap K V m.

Lemma elements l f : distinct l -> (forall k v, In (k, v) l -> f k = Some v) ->
  flat_map (fun k => match f k with Some v => [(k, v)] | None => [] end) (map fst l) = l.
Proof.
  induction l as [|[a b] l IH]; cbn [map flat_map fst distinct]; intros D F; [reflexivity|].
  rewrite (F a b) by (left; reflexivity). cbn. rewrite IH; [reflexivity|tauto|]. intros k v I. apply F. right. exact I.
Qed.

Lemma distinct_lookup l : distinct l -> forall k v, In (k, v) l -> lookup l k = Some v.
Proof.
  induction l as [|[a b] l IH]; cbn [distinct lookup In]; [tauto|]. intros [D1 D2] k v [E|E].
  - injection E as -> ->. rewrite eqv_refl. reflexivity.
  - rewrite (D1 k v E). auto.
Qed.

Lemma step_refines m a o : rel m a ->
  match mstep K V eqv m o with
  | Ok (m', r) => exists a', astep K V eqv (cap K V m) a o = Some (a', r) /\ rel m' a' /\ cap K V m' = cap K V m
  | Terminate => astep K V eqv (cap K V m) a o = None
  end.
Proof.
  intros (D & L & O & C). assert (LEN : length (order K V a) = length (storage K V m)) by (rewrite O, map_length; reflexivity).
  assert (PUT : forall key v, lookup (storage K V m) key = None -> forall key', val K V (mkA K V (put K V eqv (val K V a) key v) (order K V a ++ [key])) key' = lookup (storage K V m ++ [(key, v)]) key').
  { intros key v N key'. cbn. unfold put. rewrite lookup_app, L. destruct (eqv key key') eqn:E; [|destruct (lookup _ key'); reflexivity].
    destruct (lookup (storage K V m) key') as [w|] eqn:W; [|reflexivity]. exfalso.
    destruct (find_from_spec (storage K V m) key' 0) as [[A _]|(j & k & w' & A & _ & X & _ & F)]; [congruence|].
    apply nth_error_In in X. pose proof (lookup_none_in _ _ N k w' X) as Y. destruct EQ as (_ & SY & T).
    rewrite (T k key' key F) in Y; [discriminate|]. rewrite SY. exact E. }
  destruct o as [key v|key v|key|key| |]; cbn [mstep astep].
  - unfold map_emplace, map_find, map_size. rewrite L.
    destruct (find_from_spec (storage K V m) key 0) as [[A B]|(j & k & w & A & B & X & J & F)]; rewrite A, B; cbn [Nat.add].
    + rewrite Nat.eqb_refl. rewrite LEN. destruct (Nat.ltb_spec (length (storage K V m)) (cap K V m)) as [LT|GE]; [|reflexivity].
      exists (mkA K V (put K V eqv (val K V a) key v) (order K V a ++ [key])). split; [|split].
      * unfold value_at. cbn [storage]. rewrite nth_error_app2 by lia. rewrite Nat.sub_diag. reflexivity.
      * split; [cbn; apply distinct_app; auto|]. split; [apply PUT; auto|]. cbn. rewrite O, map_app, app_length. cbn. split; [reflexivity|lia].
      * reflexivity.
    + destruct (Nat.eqb_spec j (length (storage K V m))) as [|NE]; [lia|]. exists a. split; [|split; [split; auto|reflexivity]].
      unfold value_at. rewrite X. reflexivity.
  - unfold map_assign, map_at, map_find. rewrite L.
    destruct (find_from_spec (storage K V m) key 0) as [[A B]|(j & k & w & A & B & X & J & F)]; rewrite A, B; cbn [Nat.add].
    + replace (nth_error (storage K V m) (length (storage K V m))) with (@None (K * V)) by (symmetry; apply nth_error_None; lia). reflexivity.
    + rewrite X. destruct (set_value_spec _ j k w v X D) as (P & Q & R).
      eexists. split; [reflexivity|]. split; [|reflexivity]. split; [exact P|]. split; [|split; [cbn; rewrite Q; exact O|]].
      * intros key'. cbn. rewrite R. unfold put. rewrite L. rewrite (eqv_swap k key key' F). reflexivity.
      * cbn. rewrite <- (map_length fst), Q, map_length. exact C.
  - exists a. split; [|split; [split; auto|reflexivity]]. unfold map_find, map_size. rewrite L.
    destruct (find_from_spec (storage K V m) key 0) as [[A B]|(j & k & w & A & B & X & J & F)]; rewrite A, B; cbn [Nat.add].
    + rewrite Nat.eqb_refl. reflexivity.
    + destruct (Nat.eqb_spec j (length (storage K V m))) as [|NE]; [lia|]. unfold value_at. rewrite X. reflexivity.
  - unfold map_at, map_find. rewrite L.
    destruct (find_from_spec (storage K V m) key 0) as [[A B]|(j & k & w & A & B & X & J & F)]; rewrite A, B; cbn [Nat.add].
    + replace (nth_error (storage K V m) (length (storage K V m))) with (@None (K * V)) by (symmetry; apply nth_error_None; lia). reflexivity.
    + rewrite X. exists a. split; [reflexivity|]. split; [split; auto|reflexivity].
  - exists a. split; [|split; [split; auto|reflexivity]]. rewrite LEN. reflexivity.
  - exists a. split; [|split; [split; auto|reflexivity]]. do 2 f_equal. rewrite O. f_equal. apply elements; [exact D|].
    intros k v I. rewrite L. apply distinct_lookup; auto.
Qed.

Lemma run_refines os : forall m a, rel m a ->
  fst (mrun K V eqv m os) = fst (arun K V eqv (cap K V m) a os) /\ rel (snd (mrun K V eqv m os)) (snd (arun K V eqv (cap K V m) a os)).
Proof.
  induction os as [|o os IH]; intros m a R; cbn [mrun arun]; [auto|].
  pose proof (step_refines m a o R) as S. destruct (mstep K V eqv m o) as [[m' r]|].
  - destruct S as (a' & -> & R' & C'). destruct (IH m' a' R') as [E F]. rewrite C' in E, F.
    destruct (mrun K V eqv m' os) as [[rs t] m''], (arun K V eqv (cap K V m) a' os) as [[rs' t'] a'']. cbn in *. injection E as -> ->. auto.
  - rewrite S. cbn. auto.
Qed.

(** every address handed out stays the address of the same key *)
Lemma step_prefix m o m' r i k : mstep K V eqv m o = Ok (m', r) ->
  option_map fst (nth_error (storage K V m) i) = Some k -> option_map fst (nth_error (storage K V m') i) = Some k.
Proof.
  assert (SV : forall l j v, map fst (set_value K V l j v) = map fst l).
  { induction l as [|[a b] l IH]; intros [|j] v; cbn; auto. rewrite IH. reflexivity. }
  destruct o as [key v|key v|key|key| |]; cbn [mstep]; intros E; try (injection E as <- _; auto).
  - unfold map_emplace in E. destruct (_ =? _); [|injection E as <- _; auto]. destruct (_ <? _); [|discriminate]. injection E as <- _.
    cbn. intros N. destruct (nth_error (storage K V m) i) eqn:F; [|discriminate]. rewrite nth_error_app1, F; [exact N|]. apply nth_error_Some. congruence.
  - unfold map_assign in E. destruct (map_at K V eqv m key); [|discriminate]. injection E as <- _. cbn.
    rewrite <- !nth_error_map, SV. auto.
  - destruct (map_at K V eqv m key); [|discriminate]. injection E as <- _; auto.
Qed.
End Proofs.

(** * C24 *)

(** Whatever is called in whatever order, the results are those of a finite map of the given capacity, and
    the call that terminates is the one that terminates there. *)
Theorem C24_is_a_map : forall (K V : Type) (eqv : K -> K -> bool) c os, equivalence K eqv ->
  fst (mrun K V eqv (map_new K V c) os) = fst (arun K V eqv c (aempty K V) os).
Proof.
  intros K V eqv c os EQ. apply (run_refines K V eqv EQ os (map_new K V c) (aempty K V)).
  split; [exact I|]. split; [reflexivity|]. split; [reflexivity|]. cbn. lia.
Qed.

(** No two elements have the same key, and there are never more than the capacity. *)
Theorem C24_one_value_per_key : forall (K V : Type) (eqv : K -> K -> bool) c os, equivalence K eqv ->
  let m := snd (mrun K V eqv (map_new K V c) os) in
  length (storage K V m) <= c /\
  forall i j k1 v1 k2 v2, nth_error (storage K V m) i = Some (k1, v1) -> nth_error (storage K V m) j = Some (k2, v2) ->
    eqv k1 k2 = true -> i = j.
Proof.
  intros K V eqv c os EQ. cbn zeta.
  assert (R0 : rel K V eqv (map_new K V c) (aempty K V)) by (split; [exact I|]; split; [reflexivity|]; split; [reflexivity|]; cbn; lia).
  assert (CAP : forall os m, cap K V (snd (mrun K V eqv m os)) = cap K V m).
  { clear. induction os as [|o os IH]; intros m; cbn [mrun]; [reflexivity|]. destruct (mstep K V eqv m o) as [[m' r]|] eqn:S; [|reflexivity].
    specialize (IH m'). destruct (mrun K V eqv m' os) as [[rs t] m'']. cbn in *. rewrite IH. clear - S.
    destruct o as [key v|key v|key|key| |]; cbn [mstep] in S; try (injection S as <- _; reflexivity).
    - unfold map_emplace in S. destruct (_ =? _); [|injection S as <- _; reflexivity]. destruct (_ <? _); [|discriminate]. injection S as <- _. reflexivity.
    - unfold map_assign in S. destruct (map_at K V eqv m key); [|discriminate]. injection S as <- _. reflexivity.
    - destruct (map_at K V eqv m key); [|discriminate]. injection S as <- _. reflexivity. }
  destruct (run_refines K V eqv EQ os _ _ R0) as [_ (D & _ & _ & C)]. rewrite CAP in C. split; [exact C|].
  set (l := storage K V (snd (mrun K V eqv (map_new K V c) os))) in *. clearbody l. clear - D EQ.
  induction l as [|[a b] l IH]; [intros [|i] j; discriminate|]. destruct D as [D1 D2].
  intros [|i] [|j] k1 v1 k2 v2; cbn [nth_error]; intros A B E; auto.
  - injection A as -> ->. apply nth_error_In in B. rewrite (D1 _ _ B) in E. discriminate.
  - injection B as -> ->. apply nth_error_In in A. rewrite (eqv_sym K eqv EQ), (D1 _ _ A) in E. discriminate.
  - f_equal. eapply IH; eauto.
Qed.

(** An element never moves: what is at a position stays there, whatever is inserted later. *)
Theorem C24_elements_stay : forall (K V : Type) (eqv : K -> K -> bool) os m i k,
  option_map fst (nth_error (storage K V m) i) = Some k ->
  option_map fst (nth_error (storage K V (snd (mrun K V eqv m os))) i) = Some k.
Proof.
  induction os as [|o os IH]; intros m i k H; cbn [mrun]; [exact H|]. destruct (mstep K V eqv m o) as [[m' r]|] eqn:S; [|exact H].
  pose proof (step_prefix K V eqv m o m' r i k S H) as H'. specialize (IH m' i k H').
  destruct (mrun K V eqv m' os) as [[rs t] m'']. exact IH.
Qed.

(** empty() says whether there are elements. *)
Theorem C24_empty : forall (K V : Type) (m : lmap K V), map_empty K V m = true <-> storage K V m = [].
Proof.
  intros K V m. unfold map_empty, map_size. rewrite Nat.eqb_eq. destruct (storage K V m); cbn; split; congruence.
Qed.

Example C24_example :
  equivalence nat Nat.eqb /\
  mrun nat nat Nat.eqb (map_new nat nat 2)
    [MEmplace _ _ 7 70; MEmplace _ _ 8 80; MEmplace _ _ 7 71; MAssign _ _ 8 81; MFind _ _ 9; MAt _ _ 8; MElements _ _; MEmplace _ _ 9 90; MSize _ _] =
  ([MInserted _ _ (Some 70) true; MInserted _ _ (Some 80) true; MInserted _ _ (Some 70) false; MDone _ _; MFound _ _ None; MValue _ _ 81;
    MList _ _ [(7, 70); (8, 81)]], true, mkMap _ _ [(7, 70); (8, 81)] 2).
Proof.
  split; [|vm_compute; reflexivity]. split; [apply Nat.eqb_refl|]. split; [apply Nat.eqb_sym|].
  intros x y z A B. apply Nat.eqb_eq in A. subst y. exact B.
Qed.

(** With a predicate that is not an equivalence (here: reflexive and symmetric, "close to") find still
    returns the first match. *)
Example C24_not_an_equivalence_example : let close x y := (x - y <=? 1) && (y - x <=? 1) in
  fst (mrun nat nat close (map_new nat nat 3) [MEmplace _ _ 1 10; MEmplace _ _ 3 30; MEmplace _ _ 2 20; MFind _ _ 2]) =
  ([MInserted _ _ (Some 10) true; MInserted _ _ (Some 30) true; MInserted _ _ (Some 10) false; MFound _ _ (Some 10)], false).
Proof. vm_compute. reflexivity. Qed.

Print Assumptions C24_is_a_map.
Print Assumptions C24_one_value_per_key.
Print Assumptions C24_elements_stay.
Print Assumptions C24_empty.
