(** C107: provider and consumer mean the same bytes by a slot. *)
From Verif Require Import AllocProps SizeProps LayoutModel RegionProps OffsetPtrProps.
Local Open Scope Z_scope.

(** * Specification *)

(** sizeof and alignof of some type *)
Definition a_type (t : sinfo) : Prop :=
  is_size (si_size t) /\ pow2 (si_align t) /\ multiple (si_size t) (si_align t).
(** the samples of the event fit into the address space *)
Definition sane_provider (p : provider) : Prop :=
  a_type (p_info p) /\ 0 <= p_slots p /\ p_slots p * si_size (p_info p) + 16 < W64.

(** the process has mapped [size] bytes of shared memory at [base] *)
Definition mapped (regs : regions) (base size : Z) : Prop :=
  0 < base /\ 0 < size /\ base + size < W64 /\
  exists os, Forall sane_op os /\ rrun [] os = Some regs /\ expected os (base, base + size).

(** the slot array and the meta information lie inside a data section of [size] bytes (C28, C29);
    both offsets are multiples of 8 *)
Definition inside (m : evmem) (size : Z) : Prop :=
  0 <= ev_off m /\ ev_off m + ev_bytes m <= size /\ 0 <= ev_moff m /\ ev_moff m + OPTR_SIZE <= size /\
  ev_off m - ev_moff m <> 1.

(** a consumer that does not name another type than the provider *)
Definition agrees (c : option sinfo) (t : sinfo) : Prop := c = None \/ c = Some t.

(** * Lemmas *)
Lemma land_pow2 a : 0 < a -> Z.land a (a - 1) = 0 -> exists k, 0 <= k /\ a = 2 ^ k.
Proof.
  intros A L. exists (Z.log2 a). pose proof (Z.log2_nonneg a). split; [lia|].
  pose proof (Z.log2_spec a A) as [B1 B2]. destruct (Z.eq_dec a (2 ^ Z.log2 a)) as [|N]; [assumption|exfalso].
  assert (E : Z.log2 (a - 1) = Z.log2 a) by (apply Z.log2_unique; lia).
  assert (T : Z.testbit (Z.land a (a - 1)) (Z.log2 a) = true).
  { rewrite Z.land_spec, (Z.bit_log2 a A). rewrite <- E at 1. rewrite Z.bit_log2; [reflexivity|].
    assert (0 < 2 ^ Z.log2 a) by (apply Z.pow_pos_nonneg; lia). lia. }
  rewrite L, Z.bits_0 in T. discriminate.
Qed.

Lemma pow2_land k : 0 <= k -> Z.land (2 ^ k) (2 ^ k - 1) = 0.
Proof.
  intros K. rewrite Z.sub_1_r, <- Z.ones_equiv, Z.land_ones by exact K. apply Z.mod_same.
  apply Z.pow_nonzero; lia.
Qed.

Lemma multiple_mod x a : 0 < a -> multiple x a <-> x mod a = 0.
Proof.
  intros A. split.
  - intros [k ->]. apply Z.mod_mul. lia.
  - intros M. exists (x / a). pose proof (Z.div_mod x a ltac:(lia)). lia.
Qed.

Lemma type_aligned t : a_type t -> CalculateAlignedSize (si_size t) (si_align t) = Ok (si_size t).
Proof.
  intros (S & P & M). pose proof (pow2_pos _ P). apply multiple_mod in M; [|assumption].
  unfold CalculateAlignedSize. destruct (Z.eqb_spec (si_align t) 0); [lia|]. rewrite M. reflexivity.
Qed.

Lemma wrap_id x : 0 <= x < W64 -> wrap x = x.
Proof. intros. unfold wrap. apply Z.mod_small. assumption. Qed.

(** what creating an event leaves in shared memory *)
Lemma create_spec p off moff m : sane_provider p -> create p off moff = Ok m ->
  ev_off m = off /\ ev_moff m = moff /\ ev_info m = p_info p /\ ev_ctl m = p_slots p mod 65536 /\
  p_slots p * si_size (p_info p) <= ev_bytes m /\
  (p_generic p = false -> ev_count m = p_slots p) /\ (p_generic p = true -> si_align (p_info p) <= 16).
Proof.
  intros (T & N & B). unfold create. destruct T as (S & P & M). unfold is_size in S.
  destruct (p_generic p) eqn:G.
  - unfold MAX_ALIGN. destruct (Z.ltb_spec 16 (si_align (p_info p))); [discriminate|].
    rewrite type_aligned by (repeat split; try apply S; assumption). cbn [bind]. intros E. injection E as <-. cbn.
    assert (X : 0 <= p_slots p * si_size (p_info p)) by nia.
    rewrite (wrap_id (si_size _ * _)) by nia. rewrite (wrap_id (_ + 16 - 1)) by nia.
    pose proof (Z.div_mod (si_size (p_info p) * p_slots p + 16 - 1) 16 ltac:(lia)).
    pose proof (Z.mod_pos_bound (si_size (p_info p) * p_slots p + 16 - 1) 16 ltac:(lia)).
    rewrite wrap_id by nia. repeat split; try congruence; try assumption. nia.
  - intros E. injection E as <-. cbn. rewrite wrap_id by nia. repeat split; try congruence. lia.
Qed.

Lemma ctl_le n : 0 <= n -> n mod 65536 <= n.
Proof. intros. apply Z.mod_le; lia. Qed.

(** reading the pointer to the slot array *)
Lemma raw_array_ok regs base size m total :
  mapped regs base size -> inside m size -> 0 <= total -> ev_off m + total <= size ->
  raw_array regs base m total = Ok (base + ev_off m).
Proof.
  intros (B & S & W & os & SA & RUN & EX) (I1 & I2 & I3 & I4 & I5) T F. unfold raw_array.
  unfold OPTR_SIZE in *.
  rewrite (C30_valid_access_succeeds os regs (base, base + size)); unfold is_addr, object_inside, target, is_null, OPTR_SIZE in *;
    cbn [fst snd o_off] in *; try assumption; try lia.
  f_equal. lia.
Qed.

(** * Theorems *)

(** A generic provider's size information is accepted exactly if it is that of some type: the
    alignment is a power of two and the size a multiple of it. *)
Theorem C107_accepted_types : forall size a, is_size size -> is_size a ->
  (MakeDataTypeSizeInfo size a = Some (mkSI size a) <-> a_type (mkSI size a)) /\
  (MakeDataTypeSizeInfo size a = None <-> ~ a_type (mkSI size a)).
Proof.
  intros size a S A. unfold is_size in *.
  assert (X : a_type (mkSI size a) <-> MakeDataTypeSizeInfo size a = Some (mkSI size a)).
  { unfold a_type, MakeDataTypeSizeInfo. cbn [si_size si_align]. split.
    - intros (_ & (k & K & E) & M). assert (P : 0 < a) by (subst a; apply Z.pow_pos_nonneg; lia).
      apply multiple_mod in M; [|exact P]. destruct (Z.eqb_spec a 0); [lia|].
      rewrite E, pow2_land by lia. rewrite <- E, M. reflexivity.
    - destruct (Z.eqb_spec a 0); [discriminate|]. cbn [negb andb].
      destruct (Z.eqb_spec (Z.land a (a - 1)) 0) as [L|]; [|discriminate].
      destruct (Z.eqb_spec (size mod a) 0) as [M|]; [|discriminate]. intros _.
      split; [exact S|]. split; [|apply multiple_mod; [lia|exact M]].
      destruct (land_pow2 a ltac:(lia) L) as (k & K & E). exists k. split; [|exact E]. split; [exact K|].
      apply (Z.pow_lt_mono_r_iff 2); [lia|lia|]. rewrite <- E. change (2 ^ 64) with W64. lia. }
  assert (Y : MakeDataTypeSizeInfo size a = Some (mkSI size a) \/ MakeDataTypeSizeInfo size a = None).
  { unfold MakeDataTypeSizeInfo. destruct (_ && _); [destruct (_ =? _)|]; auto. }
  split; [symmetry; exact X|]. rewrite X. destruct Y as [Y|Y]; rewrite Y; split; congruence.
Qed.

(** For every kind of provider (typed or generic) and of consumer (typed with the same type, or
    generic), wherever the two processes map the memory, and for every slot the consumer can be
    given: neither terminates, and the address the consumer reads is at the same place of its mapping
    as the one the provider writes in its own.  The sample lies inside the slot array, slots do not
    overlap, and the sample is aligned if the mappings and the slot array are. *)
Theorem C107_same_place : forall p off moff m regsp bp regsc bc size c i,
  sane_provider p -> create p off moff = Ok m -> inside m size ->
  mapped regsp bp size -> mapped regsc bc size -> agrees c (p_info p) -> 0 <= i < ev_ctl m ->
  exists d,
    provider_slot p m (bp + off) i = Ok (bp + off + d) /\
    consumer_slot regsc bc c m i = Ok (bc + off + d) /\
    0 <= d /\ d + si_size (p_info p) <= ev_bytes m /\ off + ev_bytes m <= size /\
    (forall j, 0 <= j < i -> exists d', provider_slot p m (bp + off) j = Ok (bp + off + d') /\ d' + si_size (p_info p) <= d) /\
    (forall b, multiple (b + off) (si_align (p_info p)) -> multiple (b + off + d) (si_align (p_info p))).
Proof.
  intros p off moff m regsp bp regsc bc size c i SP CR IN MP MC AG I.
  destruct (create_spec _ _ _ _ SP CR) as (O & MO & IF & CT & BY & TY & GE).
  destruct SP as (T & N & B). pose proof T as (S & P & M). unfold is_size in S.
  pose proof (ctl_le _ N) as LE. rewrite <- CT in LE.
  pose proof IN as (I1 & I2 & _). rewrite O in I1, I2. pose proof MP as (Bp & Sz & Wp & _).
  assert (PS : forall j, 0 <= j <= i -> provider_slot p m (bp + off) j = Ok (bp + off + j * si_size (p_info p))).
  { intros j J. unfold provider_slot. destruct (p_generic p) eqn:G.
    - rewrite type_aligned by exact T. cbn [bind]. rewrite wrap_id by nia. unfold AddOffset.
      destruct (Z.leb_spec (bp + off) (W64 - 1 - j * si_size (p_info p))); [reflexivity|nia].
    - rewrite TY by reflexivity. destruct (Z.ltb_spec j (p_slots p)); [reflexivity|lia]. }
  exists (i * si_size (p_info p)). split; [apply PS; lia|]. split.
  - assert (E : forall t, t = p_info p -> (do s <- CalculateAlignedSize (si_size t) (si_align t); do total <- mul_sz s (ev_ctl m);
        raw_array regsc bc m total) = Ok (bc + off)).
    { intros t ->. rewrite type_aligned by exact T. cbn [bind]. unfold mul_sz.
      destruct (Z.ltb_spec (si_size (p_info p) * ev_ctl m) W64); [|nia]. cbn [bind].
      rewrite (raw_array_ok regsc bc size m _ MC IN); [rewrite O; reflexivity|nia|rewrite O; nia]. }
    pose proof MC as (Bc & _). unfold consumer_slot.
    destruct AG as [-> | ->]; [rewrite IF|]; specialize (E (p_info p) eq_refl);
      rewrite type_aligned in * by exact T; cbn [bind] in *;
      destruct (mul_sz (si_size (p_info p)) (ev_ctl m)); try discriminate; cbn [bind] in *;
      rewrite E; cbn [bind]; (destruct (Z.eqb_spec (bc + off) 0); [lia|]);
      rewrite ?IF, ?Z.eqb_refl; cbn [negb]; rewrite wrap_id by nia; f_equal; lia.
  - split; [nia|]. split; [nia|]. split; [exact I2|]. split.
    + intros j J. exists (j * si_size (p_info p)). split; [apply PS; lia|nia].
    + intros b [k K]. destruct M as [l L]. exists (k + i * l). rewrite K, L. lia.
Qed.

(** A typed consumer whose type differs from the provider's in size or alignment never sees a
    sample: its process terminates, whatever is in shared memory. *)
Theorem C107_other_type_never_read : forall regs base t m i,
  t <> ev_info m -> forall q, consumer_slot regs base (Some t) m i <> Ok q.
Proof.
  intros regs base t m i N q. unfold consumer_slot.
  destruct (CalculateAlignedSize _ _); cbn [bind]; try discriminate.
  destruct (mul_sz _ _); cbn [bind]; try discriminate. destruct (raw_array _ _ _ _) as [r| |]; cbn [bind]; try discriminate.
  destruct (r =? 0); [discriminate|].
  destruct (Z.eqb_spec (si_size (ev_info m)) (si_size t)) as [E1|]; [|discriminate].
  destruct (Z.eqb_spec (si_align (ev_info m)) (si_align t)) as [E2|]; [|discriminate].
  exfalso. apply N. destruct t, (ev_info m); cbn in *. congruence.
Qed.

(** A provider that opens the memory of its predecessor writes every slot where the predecessor did,
    if both have the same type and the new one is of the same kind or generic; the number of slots
    need not be the same.
    Missing: any other provider, see C107_restart_typed_refuted and C107_restart_size_refuted. *)
Theorem C107_restart_partial : forall p off moff m p' regs bp size arr i,
  sane_provider p -> create p off moff = Ok m -> inside m size -> mapped regs bp size ->
  sane_provider p' -> p_info p' = p_info p -> p_generic p' = p_generic p \/ p_generic p' = true ->
  reopen regs bp p' m = Ok arr -> 0 <= i < ev_ctl m ->
  provider_slot p' m arr i = provider_slot p m (bp + off) i.
Proof.
  intros p off moff m p' regs bp size arr i SP CR IN MP SP' TI KI RO I.
  destruct (create_spec _ _ _ _ SP CR) as (O & MO & IF & CT & BY & TY & GE).
  assert (A : arr = bp + off).
  { unfold reopen in RO. destruct (p_generic p') eqn:G; [|injection RO as <-; rewrite O; reflexivity].
    rewrite IF in RO. destruct (CalculateAlignedSize _ _); cbn [bind] in RO; try discriminate.
    destruct (mul_sz _ _) as [tot| |]; cbn [bind] in RO; try discriminate.
    destruct (raw_array _ _ _ _) as [q| |] eqn:Q; cbn [bind] in RO; try discriminate.
    destruct (Z.eqb_spec q 0); [discriminate|]. injection RO as <-.
    unfold raw_array, get, GetPointerWithBoundsCheck in Q.
    destruct (match GetBoundsFromAddress _ _ with Some _ => _ | None => _ end) as [[]| |]; cbn [bind] in Q; try discriminate.
    apply ptr_ok in Q as [[_ ->]|[_ ->]]; [congruence|]. cbn. rewrite O. lia. }
  subst arr. destruct SP as (T & N & B). pose proof T as (S & P & M). unfold is_size in S.
  pose proof (ctl_le _ N) as LE. rewrite <- CT in LE. unfold provider_slot. rewrite TI.
  destruct KI as [-> | ->]; [reflexivity|]. destruct (p_generic p) eqn:G; [reflexivity|].
  rewrite type_aligned by exact T. cbn [bind]. rewrite TY by reflexivity.
  destruct (Z.ltb_spec i (p_slots p)); [|lia]. rewrite wrap_id by nia.
  pose proof MP as (Bp & Sz & Wp & _). pose proof IN as (I1 & I2 & _). rewrite O in I1, I2.
  unfold AddOffset. destruct (Z.leb_spec (bp + off) (W64 - 1 - i * si_size (p_info p))); [reflexivity|nia].
Qed.

(** the same, never terminating, if the number of slots did not grow *)
Theorem C107_restart_opens : forall p off moff m p' regs bp size,
  sane_provider p -> create p off moff = Ok m -> inside m size -> mapped regs bp size ->
  0 <= p_slots p' <= p_slots p ->
  reopen regs bp p' m = Ok (bp + off).
Proof.
  intros p off moff m p' regs bp size SP CR IN MP SL.
  destruct (create_spec _ _ _ _ SP CR) as (O & MO & IF & CT & BY & TY & GE).
  destruct SP as (T & N & B). pose proof T as (S & P & M). unfold is_size in S.
  pose proof MP as (Bp & Sz & Wp & _). pose proof IN as (I1 & I2 & _). rewrite O in I1, I2.
  unfold reopen. destruct (p_generic p'); [|rewrite O; reflexivity].
  rewrite IF, type_aligned by exact T. cbn [bind]. unfold mul_sz.
  destruct (Z.ltb_spec (si_size (p_info p) * p_slots p') W64); [|nia]. cbn [bind].
  rewrite (raw_array_ok regs bp size m _ MP IN); [|nia|rewrite O; nia]. cbn [bind]. rewrite O.
  destruct (Z.eqb_spec (bp + off) 0); [lia|reflexivity].
Qed.

(** * Cases that meet the hypotheses, and findings *)
Definition one_region (base : Z) : regions := [(base, base + 1048576)].
Lemma one_region_mapped base : 0 < base -> base + 1048576 < W64 -> mapped (one_region base) base 1048576.
Proof.
  intros B W. repeat split; try lia. exists [RAdd base (base + 1048576)]. split; [repeat constructor; cbn; lia|].
  split; [reflexivity|]. cbn. right. split; [reflexivity|tauto].
Qed.

Definition typed_prov : provider := mkProv false (mkSI 12 4) 10.
Definition generic_prov : provider := mkProv true (mkSI 12 4) 10.

Lemma small_type : a_type (mkSI 12 4).
Proof. repeat split; cbn; try lia. - exists 2. split; [lia|reflexivity]. - exists 3. reflexivity. Qed.

Example C107_applies_typed_provider_generic_consumer :
  sane_provider typed_prov /\ exists m, create typed_prov 256 64 = Ok m /\ inside m 1048576 /\ ev_ctl m = 10 /\
  mapped (one_region 65536) 65536 1048576 /\ mapped (one_region 4194304) 4194304 1048576 /\
  provider_slot typed_prov m (65536 + 256) 7 = Ok (65536 + 256 + 84) /\
  consumer_slot (one_region 4194304) 4194304 None m 7 = Ok (4194304 + 256 + 84).
Proof.
  split; [split; [apply small_type|cbn; unfold W64; lia]|]. eexists. split; [reflexivity|].
  split; [vm_compute; repeat split; intros X; discriminate X|]. split; [reflexivity|].
  split; [apply one_region_mapped; unfold W64; lia|]. split; [apply one_region_mapped; unfold W64; lia|].
  split; vm_compute; reflexivity.
Qed.

Example C107_applies_generic_provider_typed_consumer :
  sane_provider generic_prov /\ exists m, create generic_prov 256 64 = Ok m /\ inside m 1048576 /\ ev_bytes m = 128 /\ ev_count m = 8 /\
  provider_slot generic_prov m (65536 + 256) 9 = Ok (65536 + 256 + 108) /\
  consumer_slot (one_region 4194304) 4194304 (Some (mkSI 12 4)) m 9 = Ok (4194304 + 256 + 108) /\
  consumer_slot (one_region 4194304) 4194304 (Some (mkSI 12 2)) m 9 = Term.
Proof.
  split; [split; [apply small_type|cbn; unfold W64; lia]|]. eexists. split; [reflexivity|].
  split; [vm_compute; repeat split; intros X; discriminate X|]. repeat split; vm_compute; reflexivity.
Qed.

(** Finding: a generic provider with a type of alignment above 16 is created without an error, but
    terminates when it is offered. *)
Theorem C107_overaligned_generic_refuted : exists size a,
  MakeDataTypeSizeInfo size a = Some (mkSI size a) /\
  forall slots off moff, create (mkProv true (mkSI size a) slots) off moff = Term.
Proof. exists 64, 32. split; reflexivity. Qed.

(** Finding: sizes given to a generic provider are multiplied without a check.  With size 2^60 and 16
    slots the storage has no byte at all, and yet the provider hands out every slot. *)
Theorem C107_huge_generic_refuted : exists size a slots m,
  MakeDataTypeSizeInfo size a = Some (mkSI size a) /\
  create (mkProv true (mkSI size a) slots) 256 64 = Ok m /\ ev_bytes m = 0 /\
  forall i, 0 <= i < ev_ctl m -> exists q, provider_slot (mkProv true (mkSI size a) slots) m (65536 + 256) i = Ok q.
Proof.
  exists 1152921504606846976, 1, 16. eexists. split; [reflexivity|]. split; [reflexivity|]. split; [reflexivity|].
  intros i I. change (0 <= i < 16) in I. unfold provider_slot. cbn [p_generic p_info si_size si_align].
  change (CalculateAlignedSize _ _) with (Ok 1152921504606846976). cbn [bind].
  unfold wrap, AddOffset. rewrite Z.mod_small by (unfold W64; lia).
  destruct (Z.leb_spec (65536 + 256) (W64 - 1 - i * 1152921504606846976)) as [|H]; [eexists; reflexivity|].
  exfalso. unfold W64 in H. lia.
Qed.

(** Finding: a generic provider that restarts with a larger sample size on the memory of its crashed
    predecessor is not refused; the slots it hands out lie outside the slot array. *)
Theorem C107_restart_size_refuted : exists p p' m regs base arr i q,
  sane_provider p /\ sane_provider p' /\ create p 256 64 = Ok m /\ inside m 1048576 /\ mapped regs base 1048576 /\
  p_slots p' = p_slots p /\ reopen regs base p' m = Ok arr /\ 0 <= i < ev_ctl m /\
  provider_slot p' m arr i = Ok q /\ base + ev_off m + ev_bytes m <= q.
Proof.
  exists generic_prov, (mkProv true (mkSI 48 4) 10). eexists. exists (one_region 65536), 65536. eexists. exists 5. eexists.
  split; [split; [apply small_type|cbn; unfold W64; lia]|].
  split. { split; [|cbn; unfold W64; lia]. repeat split; cbn; try (unfold W64; lia). - exists 2. split; [lia|reflexivity]. - exists 12. reflexivity. }
  split; [reflexivity|]. split; [vm_compute; repeat split; intros X; discriminate X|].
  split; [apply one_region_mapped; unfold W64; lia|]. split; [reflexivity|]. split; [vm_compute; reflexivity|].
  split; [cbn; unfold slot_index; vm_compute; split; congruence|]. split; [vm_compute; reflexivity|]. vm_compute. congruence.
Qed.

(** Finding: a typed provider that restarts on the memory of a crashed generic provider of the same
    type and number of slots terminates when it is given one of the last slots: the element count it
    finds is that of the generic array. *)
Theorem C107_restart_typed_refuted : exists p p' m regs base arr i,
  sane_provider p /\ create p 256 64 = Ok m /\ inside m 1048576 /\ mapped regs base 1048576 /\
  p_info p' = p_info p /\ p_slots p' = p_slots p /\ reopen regs base p' m = Ok arr /\ 0 <= i < ev_ctl m /\
  provider_slot p' m arr i = Term.
Proof.
  exists generic_prov, typed_prov. eexists. exists (one_region 65536), 65536. eexists. exists 8.
  split; [split; [apply small_type|cbn; unfold W64; lia]|].
  split; [reflexivity|]. split; [vm_compute; repeat split; intros X; discriminate X|].
  split; [apply one_region_mapped; unfold W64; lia|]. split; [reflexivity|]. split; [reflexivity|]. split; [vm_compute; reflexivity|].
  split; [cbn; unfold slot_index; vm_compute; split; congruence|]. vm_compute. reflexivity.
Qed.

Print Assumptions C107_accepted_types.
Print Assumptions C107_same_place.
Print Assumptions C107_other_type_never_read.
Print Assumptions C107_restart_partial.
Print Assumptions C107_restart_opens.
Print Assumptions C107_overaligned_generic_refuted.
Print Assumptions C107_huge_generic_refuted.
Print Assumptions C107_restart_size_refuted.
Print Assumptions C107_restart_typed_refuted.
