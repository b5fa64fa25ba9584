(** C26-C29, C61: sizes and allocations of shared memory. *)
From Verif Require Import AllocModel RegionProps OffsetPtrProps.
Local Open Scope Z_scope.

(** * Specification vocabulary *)
Definition is_size (x : Z) : Prop := 0 <= x < W64.
Definition pow2 (a : Z) : Prop := exists k, 0 <= k < 64 /\ a = 2 ^ k.
Definition valid_info (x : sinfo) : Prop := is_size (si_size x) /\ pow2 (si_align x).
Definition multiple (m a : Z) : Prop := exists k, m = k * a.

(** * Lemmas *)
Lemma pow2_pos a : pow2 a -> 0 < a.
Proof. intros (k & K & ->). apply Z.pow_pos_nonneg; lia. Qed.

Lemma pow2_lt a : pow2 a -> a < W64.
Proof.
  intros (k & K & ->). change W64 with (2 ^ 64). apply Z.pow_lt_mono_r; lia.
Qed.

Lemma align_up_spec x a : 0 < a -> align_up x a mod a = 0 /\ x <= align_up x a < x + a.
Proof.
  intros A. unfold align_up. split; [apply Z.mod_mul; lia|].
  pose proof (Z.div_mod (x + a - 1) a ltac:(lia)). pose proof (Z.mod_pos_bound (x + a - 1) a A). nia.
Qed.

Lemma align_up_unique x a y : 0 < a -> y mod a = 0 -> x <= y < x + a -> align_up x a = y.
Proof.
  intros A M B. destruct (align_up_spec x a A) as [M' B'].
  pose proof (Z.div_mod y a ltac:(lia)). pose proof (Z.div_mod (align_up x a) a ltac:(lia)).
  assert (align_up x a / a = y / a) by nia. nia.
Qed.

Lemma align_up_shift b x a : 0 < a -> b mod a = 0 -> align_up (b + x) a = b + align_up x a.
Proof.
  intros A B. destruct (align_up_spec x a A) as [M' B']. apply align_up_unique; [exact A| |lia].
  rewrite Z.add_mod, B, M' by lia. reflexivity.
Qed.

Lemma align_up_id x a : 0 < a -> x mod a = 0 -> align_up x a = x.
Proof. intros A M. apply align_up_unique; auto; lia. Qed.

Lemma cas_ok size a r : is_size size -> is_size a -> CalculateAlignedSize size a = Ok r ->
  0 < a /\ r = align_up size a /\ is_size r.
Proof.
  unfold is_size, CalculateAlignedSize. intros S A E.
  destruct (Z.eqb_spec a 0); [discriminate|]. assert (P : 0 < a) by lia. split; [exact P|].
  destruct (Z.eqb_spec (size mod a) 0) as [M|M]; [injection E as <-; rewrite align_up_id; auto|].
  pose proof (Z.mod_pos_bound size a P). pose proof (Z.div_mod size a ltac:(lia)).
  destruct (Z.ltb_spec a size).
  - destruct (Z.leb_spec size (W64 - 1 - a)); [|discriminate]. injection E as <-. split; [|lia].
    symmetry. apply align_up_unique; [exact P| |lia].
    replace (size + a - size mod a) with ((size / a + 1) * a) by nia. apply Z.mod_mul. lia.
  - injection E as <-. split; [|lia]. symmetry. apply align_up_unique; [exact P|apply Z.mod_same; lia|].
    assert (size <> a) by (intros ->; rewrite Z.mod_same in M by lia; lia).
    assert (0 < size) by (destruct (Z.eq_dec size 0); [subst; rewrite Z.mod_0_l in M by lia; lia|lia]). lia.
Qed.

Lemma cas_term size a : is_size size -> pow2 a -> align_up size a < W64 -> CalculateAlignedSize size a = Ok (align_up size a).
Proof.
  intros S PA LT. assert (A : is_size a) by (pose proof (pow2_pos a PA); pose proof (pow2_lt a PA); unfold is_size; lia).
  destruct (CalculateAlignedSize size a) as [r| |] eqn:E.
  - apply cas_ok in E; auto. destruct E as (_ & -> & _). reflexivity.
  - exfalso. unfold CalculateAlignedSize in E. pose proof (pow2_pos a PA) as P.
    destruct (Z.eqb_spec a 0); [lia|]. destruct (Z.eqb_spec (size mod a) 0); [discriminate|].
    destruct (Z.ltb_spec a size); [|discriminate]. destruct (Z.leb_spec size (W64 - 1 - a)); [discriminate|].
    destruct (align_up_spec size a P) as [M B]. unfold is_size in *.
    (* the next multiple is 2^64 itself *)
    destruct PA as (k & K & ->).
    assert (D : W64 = 2 ^ (64 - k) * 2 ^ k) by (rewrite <- Z.pow_add_r by lia; replace (64 - k + k) with 64 by lia; reflexivity).
    pose proof (Z.div_mod (align_up size (2 ^ k)) (2 ^ k) ltac:(lia)).
    assert (align_up size (2 ^ k) / 2 ^ k < 2 ^ (64 - k)) by nia.
    assert (align_up size (2 ^ k) <= W64 - 2 ^ k) by nia. 
    destruct (Z.eq_dec (align_up size (2 ^ k)) size) as [Q|Q]; [rewrite Q in M; lia|].
    assert (size <= W64 - 2 ^ k - 1) by lia. lia.
  - exfalso. unfold CalculateAlignedSize in E. repeat match type of E with context [if ?b then _ else _] => destruct b end; discriminate.
Qed.

Lemma cas_cases size a : CalculateAlignedSize size a <> UB.
Proof. unfold CalculateAlignedSize. repeat match goal with |- context [if ?b then _ else _] => destruct b end; discriminate. Qed.

(** * C26 *)
Theorem C26_smallest_multiple : forall size a r, is_size size -> is_size a -> CalculateAlignedSize size a = Ok r ->
  is_size r /\ multiple r a /\ size <= r /\ (size <> 0 -> a <= r) /\
  forall m, multiple m a -> size <= m -> r <= m.
Proof.
  intros size a r S A E. destruct (cas_ok size a r S A E) as (P & -> & R). destruct (align_up_spec size a P) as [M B].
  split; [exact R|]. split; [exists (align_up size a / a); pose proof (Z.div_mod (align_up size a) a ltac:(lia)); nia|].
  split; [lia|]. split.
  - intros N. unfold is_size in S. pose proof (Z.div_mod (align_up size a) a ltac:(lia)).
    assert (0 < align_up size a / a) by nia. nia.
  - intros m (k & ->) L. pose proof (Z.div_mod (align_up size a) a ltac:(lia)).
    destruct (Z_lt_le_dec (k * a) (align_up size a)); [|lia].
    assert (k < align_up size a / a) by nia. nia.
Qed.

(** It terminates instead of wrapping around, and for every power of two only then. *)
Theorem C26_when_it_terminates : forall size a, is_size size -> pow2 a ->
  CalculateAlignedSize size a <> UB /\
  (CalculateAlignedSize size a = Term <-> ~ exists m, multiple m a /\ size <= m < W64).
Proof.
  intros size a S PA. split; [apply cas_cases|]. pose proof (pow2_pos a PA) as P.
  destruct (align_up_spec size a P) as [M B].
  assert (MU : multiple (align_up size a) a) by (exists (align_up size a / a); pose proof (Z.div_mod (align_up size a) a ltac:(lia)); nia).
  split.
  - intros E (m & (k & ->) & L). destruct (Z_lt_le_dec (align_up size a) W64) as [Q|Q]; [rewrite cas_term in E by auto; discriminate|].
    pose proof (Z.div_mod (align_up size a) a ltac:(lia)).
    assert (k < align_up size a / a) by nia. nia.
  - intros N. destruct (CalculateAlignedSize size a) as [r| |] eqn:E; [exfalso|reflexivity|exfalso; apply (cas_cases size a E)].
    apply N. assert (A : is_size a) by (pose proof (pow2_lt a PA); unfold is_size; lia).
    destruct (cas_ok size a r S A E) as (_ & -> & R). exists (align_up size a). unfold is_size in R. split; [exact MU|lia].
Qed.

Example C26_example :
  CalculateAlignedSize 17 8 = Ok 24 /\ CalculateAlignedSize 24 8 = Ok 24 /\ CalculateAlignedSize 3 8 = Ok 8 /\
  CalculateAlignedSize 0 8 = Ok 0 /\ CalculateAlignedSize (W64 - 8) 8 = Ok (W64 - 8) /\
  CalculateAlignedSize (W64 - 7) 8 = Term /\ CalculateAlignedSize 5 0 = Term /\
  CalculateAlignedSize (W64 - 2) 3 = Term (* not a power of two: terminates although 2^64-1 would do *).
Proof. vm_compute. repeat split. Qed.

(** * One allocation *)
Lemma reserve_spec base V cur bytes a :
  0 <= base -> 0 <= cur <= V -> V < H63 -> base + V < W64 -> is_size bytes -> 0 < a ->
  reserve base V cur bytes a =
    if align_up (base + cur) a + bytes <=? base + V
    then Ok (align_up (base + cur) a, align_up (base + cur) a - base + bytes) else Term.
Proof.
  unfold is_size. intros B C VH BV S A. unfold reserve.
  assert (AO : forall x y, x + y < W64 -> AddOffset x y = Ok (x + y)).
  { intros x y H. unfold AddOffset. destruct (Z.leb_spec x (W64 - 1 - y)); [reflexivity|lia]. }
  rewrite AO by lia. cbn [bind]. rewrite AO by lia. cbn [bind]. unfold do_allocation_algorithm.
  rewrite (proj1 (C35_difference_exact (base + V) (base + cur) ltac:(unfold is_addr; lia) ltac:(unfold is_addr; lia))) by (unfold is_off, H63 in *; lia).
  cbn [bind]. rewrite Z.mod_small by (unfold H63, W64 in *; lia). unfold std_align.
  destruct (align_up_spec (base + cur) a A) as [M U]. set (q := align_up (base + cur) a) in *.
  destruct (Z.leb_spec (bytes + (q - (base + cur))) (base + V - (base + cur))); destruct (Z.leb_spec (q + bytes) (base + V)); try lia; [|reflexivity].
  rewrite (proj1 (C35_difference_exact q (base + cur) ltac:(unfold is_addr; lia) ltac:(unfold is_addr; lia))) by (unfold is_off, H63 in *; lia).
  cbn [bind]. unfold add_sz.
  destruct (Z.ltb_spec (bytes + (q - (base + cur))) W64); [|lia]. cbn [bind].
  destruct (Z.ltb_spec (cur + (bytes + (q - (base + cur)))) W64); [|lia]. cbn [bind]. f_equal. f_equal. lia.
Qed.

(** * C28 *)
Record region_ok (base : nat -> Z) (V M : Z) : Prop := {
  ro_size : 0 <= M <= V /\ V < H63;
  ro_base : forall p, 0 <= base p /\ base p + V < W64 }.

Definition valid_label (l : alabel) : Prop :=
  match l with LAlloc _ bytes a => is_size bytes /\ pow2 a | _ => True end.

(** the bytes of a block, as offsets in the region *)
Definition in_block (b : block) (x : Z) : Prop := b_off b <= x < b_off b + b_size b.

Fixpoint stacked (M c : Z) (l : list block) : Prop :=
  match l with
  | [] => M <= c
  | b :: l => b_off b + b_size b <= c /\ 0 <= b_size b /\ stacked M (b_off b) l
  end.

Lemma stacked_le M l : forall c c', c <= c' -> stacked M c l -> stacked M c' l.
Proof. destruct l; cbn; intros; [lia|tauto || (split; [lia|tauto])]. Qed.

Lemma stacked_in M l : forall c b, stacked M c l -> In b l -> M <= b_off b /\ b_off b + b_size b <= c /\ M <= c.
Proof.
  induction l as [|b0 l IH]; intros c b S I; [destruct I|]. cbn in S. destruct S as (A & B & C).
  destruct I as [<-|I].
  - assert (M <= b_off b0) by (destruct l as [|b1 l]; [exact C|destruct (IH _ b1 C ltac:(left; reflexivity)); lia]). lia.
  - destruct (IH _ _ C I). lia.
Qed.

Record AInv (base : nat -> Z) (V M : Z) (s : ast) : Prop := {
  ai_cnt : M <= cnt s <= V;
  ai_stack : stacked M (cnt s) (blocks s);
  ai_al : forall b, In b (blocks s) -> (base (b_proc b) + b_off b) mod b_align b = 0 /\ pow2 (b_align b);
  ai_pc : forall p, match apcs s p with
          | ALoad bytes a => is_size bytes /\ pow2 a
          | ACas bytes a _ cur => is_size bytes /\ pow2 a /\ M <= cur <= cnt s
          | _ => True end }.

Lemma AInv_pc base V M s p x : AInv base V M s ->
  match x with
  | ALoad bytes a => is_size bytes /\ pow2 a
  | ACas bytes a _ cur => is_size bytes /\ pow2 a /\ M <= cur <= cnt s
  | _ => True end -> AInv base V M (a_pc s p x).
Proof.
  intros H X. constructor; [exact (ai_cnt _ _ _ _ H)|exact (ai_stack _ _ _ _ H)|exact (ai_al _ _ _ _ H)|].
  intros q. cbn. destruct (Nat.eq_dec q p) as [->|N]; [rewrite fupd_eq; exact X|rewrite fupd_neq by exact N; exact (ai_pc _ _ _ _ H q)].
Qed.

Lemma AInv_step base V M s l : region_ok base V M -> valid_label l -> AInv base V M s -> AInv base V M (astep base V s l).
Proof.
  intros RO VL H. destruct (ro_size _ _ _ RO) as [MV VH]. destruct (ai_cnt _ _ _ _ H) as [C1 C2].
  destruct l as [p bytes a|p sp|p]; cbn [astep].
  - case_eq (apcs s p); intros; try exact H. apply AInv_pc; auto.
  - destruct (ro_base _ _ _ RO p) as [B1 B2]. pose proof (ai_pc _ _ _ _ H p) as Q. revert Q.
    case_eq (apcs s p); intros; try exact H.
    + apply AInv_pc; auto. destruct Q. split; [assumption|]. split; [assumption|lia].
    + destruct Q as (S & P & CU). destruct (MAX_RETRIES <=? rt)%nat; [apply AInv_pc; auto|].
      pose proof (pow2_pos a P) as PA. rewrite reserve_spec by (auto; lia).
      destruct (align_up_spec (base p + cur) a PA) as [AM AB].
      destruct (Z.leb_spec (align_up (base p + cur) a + bytes) (base p + V)); [|apply AInv_pc; auto].
      destruct (Z.eqb_spec (cnt s) cur) as [<-|NE]; cbn [andb]; [destruct sp; cbn [negb]|].
      * apply AInv_pc; [exact H|]. split; [exact S|]. split; [exact P|]. lia.
      * unfold is_size in S. constructor; cbn [cnt blocks apcs].
        -- lia.
        -- cbn [stacked b_off b_size]. split; [lia|]. split; [lia|].
           eapply stacked_le; [|exact (ai_stack _ _ _ _ H)]. lia.
        -- intros b [<-|I]; [cbn; split; [|exact P]|exact (ai_al _ _ _ _ H b I)].
           replace (base p + (align_up (base p + cnt s) a - base p)) with (align_up (base p + cnt s) a) by lia. exact AM.
        -- intros q. destruct (Nat.eq_dec q p) as [->|N]; [rewrite fupd_eq; exact I|]. rewrite fupd_neq by exact N.
           pose proof (ai_pc _ _ _ _ H q) as Q. destruct (apcs s q); auto. destruct Q as (Q1 & Q2 & Q3). split; [exact Q1|]. split; [exact Q2|lia].
      * apply AInv_pc; [exact H|]. split; [exact S|]. split; [exact P|]. lia.
  - apply AInv_pc; auto.
Qed.

Lemma AInv_init base V M : region_ok base V M -> AInv base V M (ainit M).
Proof.
  intros RO. destruct (ro_size _ _ _ RO). constructor; cbn; [lia|lia|intros b []|intros; exact I].
Qed.

Lemma AInv_run base V M ls : region_ok base V M -> Forall valid_label ls -> AInv base V M (arun base V (ainit M) ls).
Proof.
  intros RO F. pose proof (AInv_init base V M RO) as H. revert H. generalize (ainit M).
  induction ls as [|l ls IH]; cbn [arun]; intros s H; [exact H|]. inversion F; subst.
  apply IH; auto. apply AInv_step; auto.
Qed.

(** Every block lies in the region behind the management data and is aligned for the process that
    requested it. *)
Theorem C28_inside_and_aligned : forall base V M ls b, region_ok base V M -> Forall valid_label ls ->
  In b (blocks (arun base V (ainit M) ls)) ->
  M <= b_off b /\ b_off b + b_size b <= V /\ multiple (base (b_proc b) + b_off b) (b_align b).
Proof.
  intros base V M ls b RO F I. pose proof (AInv_run base V M ls RO F) as H.
  destruct (stacked_in _ _ _ b (ai_stack _ _ _ _ H) I) as (A & B & _). destruct (ai_cnt _ _ _ _ H).
  destruct (ai_al _ _ _ _ H b I) as [AL P]. pose proof (pow2_pos _ P).
  split; [exact A|]. split; [lia|]. exists ((base (b_proc b) + b_off b) / b_align b).
  pose proof (Z.div_mod (base (b_proc b) + b_off b) (b_align b) ltac:(lia)). lia.
Qed.

(** No byte belongs to two blocks. *)
Theorem C28_disjoint : forall base V M ls i j b1 b2 x, region_ok base V M -> Forall valid_label ls ->
  nth_error (blocks (arun base V (ainit M) ls)) i = Some b1 ->
  nth_error (blocks (arun base V (ainit M) ls)) j = Some b2 -> i <> j ->
  ~ (in_block b1 x /\ in_block b2 x).
Proof.
  intros base V M ls i j b1 b2 x RO F N1 N2 NE. pose proof (AInv_run base V M ls RO F) as H.
  pose proof (ai_stack _ _ _ _ H) as S. clear H. revert S N1 N2.
  generalize (blocks (arun base V (ainit M) ls)). generalize (cnt (arun base V (ainit M) ls)). intros c l. revert c i j NE.
  induction l as [|b l IH]; intros c i j NE S N1 N2; [destruct i; discriminate|].
  cbn in S. destruct S as (A & B & C). destruct i as [|i], j as [|j]; cbn in N1, N2; try lia.
  - injection N1 as <-. apply nth_error_In in N2. destruct (stacked_in _ _ _ _ C N2). unfold in_block. lia.
  - injection N2 as <-. apply nth_error_In in N1. destruct (stacked_in _ _ _ _ C N1). unfold in_block. lia.
  - eapply IH; [|exact C|exact N1|exact N2]. lia.
Qed.

(** With page aligned mappings a block of at most page alignment is aligned in every process. *)
Theorem C28_aligned_in_every_process : forall base V M ls b q, region_ok base V M -> Forall valid_label ls ->
  (forall p, multiple (base p) PAGE_SIZE) -> multiple PAGE_SIZE (b_align b) ->
  In b (blocks (arun base V (ainit M) ls)) -> multiple (base q + b_off b) (b_align b).
Proof.
  intros base V M ls b q RO F BP (m & PM) I.
  destruct (C28_inside_and_aligned base V M ls b RO F I) as (_ & _ & (k & K)).
  destruct (BP (b_proc b)) as (k1 & K1). destruct (BP q) as (k2 & K2).
  exists (k + (k2 - k1) * m). rewrite K2. rewrite K1 in K. rewrite PM in *. nia.
Qed.

(** Blocks are never taken back or changed by later steps of anybody. *)
Theorem C28_blocks_stay : forall base V M ls1 ls2 b,
  In b (blocks (arun base V (ainit M) ls1)) -> In b (blocks (arun base V (ainit M) (ls1 ++ ls2))).
Proof.
  intros base V M ls1 ls2 b. generalize (ainit M). induction ls1 as [|l ls1 IH]; cbn [arun app]; intros s; [|apply IH].
  revert s. induction ls2 as [|l ls2 IH]; cbn [arun]; intros s I; [exact I|]. apply IH.
  destruct l as [p bytes a|p sp|p]; cbn [astep].
  - destruct (apcs s p); exact I.
  - destruct (apcs s p); try exact I. destruct (_ <=? _)%nat; [exact I|]. destruct (reserve _ _ _ _ _) as [[q n]| |]; try exact I.
    destruct (_ && _)%bool; [right; exact I|exact I].
  - exact I.
Qed.

(** A process that allocates while nobody else does gets its block exactly if it fits. *)
Theorem C28_fits : forall base V cur bytes a,
  0 <= base -> 0 <= cur <= V -> V < H63 -> base + V < W64 -> is_size bytes -> pow2 a ->
  let q := align_up (base + cur) a in
  (q + bytes <= base + V -> reserve base V cur bytes a = Ok (q, q - base + bytes)) /\
  (base + V < q + bytes -> reserve base V cur bytes a = Term).
Proof.
  intros base V cur bytes a B C VH BV S P. cbn zeta. rewrite reserve_spec by (auto using pow2_pos).
  destruct (Z.leb_spec (align_up (base + cur) a + bytes) (base + V)); split; intros; try reflexivity; lia.
Qed.

(** Two processes allocate at the same time, the second has to retry; a third crashes in between. *)
Example C28_example :
  let base := fun p => if (p =? 0)%nat then 65536 else 1048576 in
  let ls := [LAlloc 0 100 8; LAlloc 1 30 64; LAStep 0 false; LAStep 1 false; LAlloc 2 4 4; LAStep 2 false;
             LAStep 0 false; LAStep 1 false; LCrash 2; LAStep 1 false; LAlloc 0 5000 8; LAStep 0 false; LAStep 0 false] in
  region_ok base 4096 32 /\ Forall valid_label ls /\
  blocks (arun base 4096 (ainit 32) ls) = [mkB 192 30 64 1; mkB 32 100 8 0] /\
  apcs (arun base 4096 (ainit 32) ls) 0 = ADead.
Proof.
  cbn zeta. split; [constructor; [unfold H63; lia|intros [|p]; cbn; unfold W64; lia]|].
  split; [|vm_compute; split; reflexivity].
  assert (P8 : pow2 8) by (exists 3; split; [lia|reflexivity]). assert (P64 : pow2 64) by (exists 6; split; [lia|reflexivity]).
  assert (P4 : pow2 4) by (exists 2; split; [lia|reflexivity]).
  repeat constructor; cbn; unfold W64; auto; lia.
Qed.

(** * C61: a corrupted control block *)

(** The allocator trusts the counter in shared memory: if another process wrote a value beyond the
    end of the region there, the signed difference becomes a huge buffer size and the allocation
    returns an address outside the region. *)
Theorem C61_corrupted_counter_refuted : exists base V cur bytes a q n,
  0 < base /\ 0 < V < H63 /\ base + V < W64 /\ is_size cur /\ is_size bytes /\ pow2 a /\
  reserve base V cur bytes a = Ok (q, n) /\ ~ (base <= q /\ q + bytes <= base + V).
Proof.
  exists 65536, 4096, 8192, 64, 8, 73728, 8256.
  assert (P8 : pow2 8) by (exists 3; split; [lia|reflexivity]).
  repeat split; try (vm_compute; congruence); auto. lia.
Qed.

(** For every value within the region the result is inside, whoever wrote it. *)
Theorem C61_partial : forall base V cur bytes a q n,
  0 <= base -> 0 <= cur <= V -> V < H63 -> base + V < W64 -> is_size bytes -> pow2 a ->
  reserve base V cur bytes a = Ok (q, n) -> base + cur <= q /\ q + bytes <= base + V /\ cur <= n <= V.
Proof.
  intros base V cur bytes a q n B C VH BV S P. rewrite reserve_spec by (auto using pow2_pos).
  destruct (align_up_spec (base + cur) a (pow2_pos _ P)). unfold is_size in S.
  destruct (Z.leb_spec (align_up (base + cur) a + bytes) (base + V)); [|discriminate]. intros E. injection E as <- <-. lia.
Qed.

(** * C27 *)
Lemma seq_alloc base V cur0 : 0 <= base -> 0 <= cur0 -> V < H63 -> base + V < W64 ->
  forall l x l0 t t' r, l = x :: l0 -> Forall valid_info l ->
  Forall (fun x => (base + cur0) mod si_align x = 0) l ->
  is_size t -> cur0 + t <= V -> CalculateAlignedSize t (si_align x) = Ok t' -> seq_loop t' l = Ok r ->
  (cur0 + r <= V -> exists addrs, allocate_all base V (cur0 + t) l = Ok (addrs, cur0 + r)) /\
  (V < cur0 + r -> allocate_all base V (cur0 + t) l = Term).
Proof.
  intros B C VH BV. induction l as [|x0 l IH]; intros x l0 t t' r EL VI DV T TV CA SL; [discriminate|].
  injection EL as -> ->. inversion VI as [|? ? [SX PX] VI']; subst. inversion DV as [|? ? DX DV']; subst.
  pose proof (pow2_pos _ PX) as PA.
  apply cas_ok in CA as (_ & -> & T'); [|exact T|pose proof (pow2_lt _ PX); unfold is_size; lia].
  cbn [seq_loop] in SL. destruct (Z.eqb_spec (si_align x) 0); [lia|].
  destruct (Z.leb_spec (align_up t (si_align x)) (W64 - 1 - si_size x)); cbn [negb] in SL; [|discriminate].
  cbn [allocate_all]. rewrite reserve_spec by (auto; unfold is_size in *; lia).
  replace (base + (cur0 + t)) with ((base + cur0) + t) by lia. rewrite align_up_shift by auto.
  destruct (align_up_spec t (si_align x) PA) as [AM AB]. unfold is_size in *.
  destruct l0 as [|y l0].
  - injection SL as <-. cbn [allocate_all].
    destruct (Z.leb_spec (base + cur0 + align_up t (si_align x) + si_size x) (base + V)); cbn [bind]; split; intros; try lia.
    + eexists. cbn [allocate_all bind fst snd]. f_equal. f_equal. lia.
    + reflexivity.
  - inversion VI' as [|? ? [SY PY] VI'']; subst. destruct (Z.eqb_spec (si_align y) 0); [pose proof (pow2_pos _ PY); lia|].
    destruct (CalculateAlignedSize (align_up t (si_align x) + si_size x) (si_align y)) as [t2| |] eqn:C2; try discriminate.
    cbn [bind] in SL.
    assert (MON : forall l t r, seq_loop t l = Ok r -> Forall valid_info l -> is_size t -> t <= r).
    { clear. induction l as [|z l IHl]; intros t r E F T; cbn [seq_loop] in E; [injection E as <-; lia|].
      inversion F as [|? ? [SZ PZ] F']; subst. destruct (si_align z =? 0); [discriminate|].
      destruct (Z.leb_spec t (W64 - 1 - si_size z)); cbn [negb] in E; [|discriminate]. unfold is_size in *.
      destruct l as [|w l]; [injection E as <-; lia|]. destruct (si_align w =? 0); [discriminate|].
      destruct (CalculateAlignedSize (t + si_size z) (si_align w)) as [t1| |] eqn:CA; try discriminate. cbn [bind] in E.
      inversion F' as [|? ? [SW PW] F'']; subst. pose proof (pow2_lt _ PW). pose proof (pow2_pos _ PW).
      apply cas_ok in CA as (_ & -> & R); [|unfold is_size; lia|unfold is_size; lia].
      apply IHl in E; auto. destruct (align_up_spec (t + si_size z) (si_align w)); auto. lia. }
    assert (T2 : align_up t (si_align x) + si_size x <= t2 /\ 0 <= t2 < W64).
    { pose proof (pow2_pos _ PY). pose proof (pow2_lt _ PY).
      apply cas_ok in C2 as (_ & -> & R); [|unfold is_size; lia|unfold is_size; lia].
      unfold is_size in R. destruct (align_up_spec (align_up t (si_align x) + si_size x) (si_align y)) as [_ Q]; [assumption|]. split; [apply Q|exact R]. }
    destruct (Z.leb_spec (base + cur0 + align_up t (si_align x) + si_size x) (base + V)); cbn [bind fst snd].
    + destruct (IH y l0 (align_up t (si_align x) + si_size x) t2 r eq_refl VI' DV' ltac:(lia) ltac:(lia) C2 SL) as [IH1 IH2].
      replace (base + cur0 + align_up t (si_align x) - base + si_size x) with (cur0 + (align_up t (si_align x) + si_size x)) by lia.
      split; intros HH.
      * destruct (IH1 HH) as (addrs & ->). cbn [bind fst snd]. eauto.
      * rewrite (IH2 HH). reflexivity.
    + pose proof (MON _ _ _ SL VI' ltac:(unfold is_size; lia)). split; intros; [lia|reflexivity].
Qed.

(** A monotonic allocation of the sequence, starting where all its alignments are met, ends exactly
    the computed number of bytes later: it fits if and only if that many bytes are free. *)
Theorem C27_exact : forall base V cur0 l t,
  0 <= base -> 0 <= cur0 <= V -> V < H63 -> base + V < W64 -> l <> [] ->
  Forall valid_info l -> Forall (fun x => multiple (base + cur0) (si_align x)) l ->
  CalculateAlignedSizeOfSequence l = Ok t ->
  (t <= V - cur0 -> exists addrs, allocate_all base V cur0 l = Ok (addrs, cur0 + t)) /\
  (V - cur0 < t -> allocate_all base V cur0 l = Term).
Proof.
  intros base V cur0 l t B C VH BV NE VI DV E. destruct l as [|x l]; [congruence|].
  assert (DV' : Forall (fun x => (base + cur0) mod si_align x = 0) (x :: l)).
  { rewrite Forall_forall in *. intros y Y. destruct (DV y Y) as (k & ->). apply Z.mod_mul.
    destruct (VI y Y) as [_ P]. pose proof (pow2_pos _ P). lia. }
  inversion VI as [|? ? [SX PX] VI']; subst. pose proof (pow2_pos _ PX).
  destruct (seq_alloc base V cur0 B (proj1 C) VH BV (x :: l) x l 0 0 t eq_refl VI DV' ltac:(unfold is_size, W64; lia) ltac:(lia)) as [H1 H2].
  - rewrite cas_term; [f_equal; apply align_up_id; [lia|apply Z.mod_0_l; lia]|unfold is_size, W64; lia|exact PX|].
    rewrite align_up_id; [unfold W64; lia|lia|apply Z.mod_0_l; lia].
  - exact E.
  - rewrite Z.add_0_r in H1, H2. split; intros HH; [apply H1; lia|apply H2; lia].
Qed.

Example C27_example :
  let l := [mkSI 5 1; mkSI 8 8; mkSI 3 2; mkSI 16 16] in
  CalculateAlignedSizeOfSequence l = Ok 48 /\
  allocate_all 65536 80 32 l = Ok ([65568; 65576; 65584; 65600], 80) /\
  allocate_all 65536 79 32 l = Term.
Proof. vm_compute. repeat split. Qed.

(** * C29 *)
Definition fits16 (a : Z) : Prop := pow2 a /\ multiple 16 a.
Definition valid_consts (k : consts) : Prop :=
  Forall (fun x => is_size (si_size x) /\ fits16 (si_align x)) [k_storage k; k_emap k; k_mmap k; k_dynarr k].
(** a sample type whose alignment does not exceed that of std::max_align_t *)
Definition plain_elem (e : elem) : Prop :=
  is_size (e_size e) /\ fits16 (e_align e) /\ 0 <= e_slots e /\ 0 <= e_extra e.
(** page aligned base, management space a multiple of 16 *)
Definition real_region (base M size : Z) : Prop :=
  0 <= base /\ multiple base PAGE_SIZE /\ 0 <= M /\ multiple M 16 /\ 0 <= size /\ size + M < H63 /\ base + (size + M) < W64.

Lemma real_array_ok e x : plain_elem e -> real_array e = Ok x -> is_size (si_size x) /\ fits16 (si_align x).
Proof.
  intros (S & F & A & B). unfold real_array.
  assert (F16 : fits16 16) by (split; [exists 4; split; [lia|reflexivity]|exists 1; reflexivity]).
  assert (WR : forall z, is_size (wrap z)) by (intros; unfold is_size, wrap; apply Z.mod_pos_bound; reflexivity).
  destruct (e_generic e).
  - destruct (_ <? _); [discriminate|]. destruct (CalculateAlignedSize _ _); cbn [bind]; try discriminate.
    intros E. injection E as <-. cbn. auto.
  - intros E. injection E as <-. cbn. auto.
Qed.

Lemma mapr_ok {A B} (f : A -> res B) (P : A -> Prop) (Q : B -> Prop) : (forall a b, P a -> f a = Ok b -> Q b) ->
  forall l l', Forall P l -> mapr f l = Ok l' -> Forall Q l'.
Proof.
  intros H. induction l as [|a l IH]; cbn [mapr]; intros l' F E; [injection E as <-; constructor|].
  inversion F; subst. destruct (f a) as [b| |] eqn:FA; try discriminate. cbn [bind] in E.
  destruct (mapr f l) as [bs| |] eqn:M; try discriminate. injection E as <-. constructor; eauto.
Qed.

Lemma data_sequence_ok k n arrays : valid_consts k ->
  Forall (fun x => is_size (si_size x) /\ fits16 (si_align x)) arrays ->
  Forall (fun x => is_size (si_size x) /\ fits16 (si_align x)) (data_sequence k n arrays).
Proof.
  intros VC F. unfold valid_consts in VC. rewrite !Forall_cons_iff in VC. destruct VC as (K1 & K2 & K3 & K4 & _).
  assert (WR : forall z, is_size (wrap z)) by (intros; unfold is_size, wrap; apply Z.mod_pos_bound; reflexivity).
  unfold data_sequence. constructor; [exact K1|]. constructor; [split; [apply WR|apply K2]|].
  constructor; [split; [apply WR|apply K3]|]. clear K1 K2 K3.
  induction arrays as [|a l IH]; cbn [flat_map app]; [constructor|]. inversion F; subst.
  constructor; [exact K4|]. constructor; [assumption|]. apply IH. assumption.
Qed.

Lemma dry_mono l : forall s t, 0 <= s -> Forall valid_info l -> dry_run s l = Ok t ->
  s <= t /\ t < W64 \/ (l = [] /\ s = t).
Proof.
  induction l as [|x l IH]; cbn [dry_run]; intros s t S F E; [injection E as <-; auto|]. left.
  inversion F as [|? ? [SX PX] F']; subst. destruct (dry_allocate s (si_size x) (si_align x)) as [s1| |] eqn:D; try discriminate.
  cbn [bind] in E.
  assert (s <= s1 /\ s1 < W64).
  { clear IH E. unfold dry_allocate in D. destruct (AddOffset PAGE_SIZE s) as [a| |]; try discriminate. cbn [bind] in D.
    destruct (add_sz (si_size x) (si_align x)) as [b| |]; try discriminate. cbn [bind] in D.
    destruct (AddOffset a (b - 1)) as [e| |]; try discriminate. cbn [bind] in D.
    unfold do_allocation_algorithm in D. destruct (SubtractPointersBytes e a) as [d| |]; try discriminate. cbn [bind] in D.
    unfold std_align in D. pose proof (pow2_pos _ PX) as PA. destruct (align_up_spec a (si_align x) PA) as [_ AB].
    destruct (_ <=? _); [|discriminate].
    destruct (SubtractPointersBytes (align_up a (si_align x)) a) as [pd| |] eqn:SP; try discriminate. cbn [bind] in D.
    assert (0 <= pd).
    { unfold SubtractPointersBytes, SubOffset in SP. destruct (Z.ltb_spec a (align_up a (si_align x))).
      - destruct (Z.leb_spec a (align_up a (si_align x))); cbn [bind] in SP; [|discriminate]. destruct (_ <? _); [discriminate|]. injection SP as <-. lia.
      - assert (Q : align_up a (si_align x) = a) by lia. rewrite Q in SP. rewrite Z.leb_refl in SP. cbn [bind] in SP. rewrite Z.sub_diag in SP.
        cbn in SP. injection SP as <-. lia. }
    unfold add_sz in D. destruct (Z.ltb_spec (si_size x + pd) W64); cbn [bind] in D; [|discriminate].
    destruct (Z.ltb_spec (s + (si_size x + pd)) W64); [|discriminate]. injection D as <-. unfold is_size in SX. lia. }
  destruct (IH s1 t ltac:(lia) F' E) as [|[-> <-]]; lia.
Qed.

Lemma dry_alloc_ok s x s1 : 0 <= s -> valid_info x -> dry_allocate s (si_size x) (si_align x) = Ok s1 ->
  s1 = align_up (PAGE_SIZE + s) (si_align x) - PAGE_SIZE + si_size x.
Proof.
  intros S [SX PX] D. unfold is_size in SX. pose proof (pow2_pos _ PX) as PA.
  unfold dry_allocate in D. unfold AddOffset at 1 in D. destruct (Z.leb_spec PAGE_SIZE (W64 - 1 - s)); cbn [bind] in D; [|discriminate].
  unfold add_sz at 1 in D. destruct (Z.ltb_spec (si_size x + si_align x) W64); cbn [bind] in D; [|discriminate].
  unfold AddOffset at 1 in D. destruct (Z.leb_spec (PAGE_SIZE + s) (W64 - 1 - (si_size x + si_align x - 1))); cbn [bind] in D; [|discriminate].
  unfold do_allocation_algorithm in D. destruct (SubtractPointersBytes _ _) as [d| |]; try discriminate. cbn [bind] in D.
  unfold std_align in D. destruct (align_up_spec (PAGE_SIZE + s) (si_align x) PA) as [AM AB].
  destruct (_ <=? _); [|discriminate].
  assert (P0 : 0 <= PAGE_SIZE) by (unfold PAGE_SIZE; lia).
  destruct (C35_difference_exact (align_up (PAGE_SIZE + s) (si_align x)) (PAGE_SIZE + s) ltac:(unfold is_addr; lia) ltac:(unfold is_addr; lia)) as [D1 D2].
  assert (OF : is_off (align_up (PAGE_SIZE + s) (si_align x) - (PAGE_SIZE + s))).
  { unfold is_off. split; [unfold H63; lia|]. destruct PX as (k & K & Ek).
    assert (si_align x <= 2 ^ 63) by (rewrite Ek; apply Z.pow_le_mono_r; lia). change H63 with (2 ^ 63). lia. }
  rewrite (D1 OF) in D. cbn [bind] in D. unfold add_sz in D.
  destruct (_ <? W64); cbn [bind] in D; [|discriminate]. destruct (_ <? W64); [|discriminate]. injection D as <-. lia.
Qed.

Lemma dry_real base V M : 0 <= base -> 0 <= M -> V < H63 -> base + V < W64 ->
  forall l s t, 0 <= s -> Forall valid_info l ->
  Forall (fun x => (base + M) mod si_align x = 0 /\ PAGE_SIZE mod si_align x = 0) l ->
  dry_run s l = Ok t -> M + t <= V -> exists addrs, allocate_all base V (M + s) l = Ok (addrs, M + t).
Proof.
  intros B MM VH BV. induction l as [|x l IH]; intros s t S VI DV E TV; [injection E as <-; cbn; eauto|].
  pose proof (dry_mono (x :: l) s t S VI E) as MO.
  cbn [dry_run] in E. inversion VI as [|? ? VX VI']; subst. inversion DV as [|? ? [DX DP] DV']; subst.
  destruct (dry_allocate s (si_size x) (si_align x)) as [s1| |] eqn:D; try discriminate. cbn [bind] in E.
  pose proof (dry_alloc_ok s x s1 S VX D) as ES1. destruct VX as [SX PX]. pose proof (pow2_pos _ PX) as PA.
  rewrite align_up_shift in ES1 by auto. destruct (align_up_spec s (si_align x) PA) as [AM AB].
  assert (S1 : s <= s1) by (unfold is_size in SX; lia).
  assert (S1T : s1 <= t) by (destruct (dry_mono l s1 t ltac:(lia) VI' E) as [|[_ ->]]; lia).
  cbn [allocate_all]. rewrite reserve_spec by (auto; unfold is_size in *; lia).
  replace (base + (M + s)) with ((base + M) + s) by lia. rewrite align_up_shift by auto.
  destruct (Z.leb_spec (base + M + align_up s (si_align x) + si_size x) (base + V)); [|lia]. cbn [bind snd fst].
  replace (base + M + align_up s (si_align x) - base + si_size x) with (M + s1) by lia.
  destruct (IH s1 t ltac:(lia) VI' DV' E TV) as (addrs & ->). cbn [bind fst snd]. eauto.
Qed.

Lemma fits16_page a : fits16 a -> PAGE_SIZE mod a = 0.
Proof. intros [P (k & K)]. pose proof (pow2_pos _ P). replace PAGE_SIZE with (256 * k * a) by (unfold PAGE_SIZE; lia). apply Z.mod_mul. lia. Qed.

Lemma fits16_base base M size a : real_region base M size -> fits16 a -> (base + M) mod a = 0.
Proof.
  intros (_ & (p & P) & _ & (m & E) & _) [Q (k & K)]. pose proof (pow2_pos _ Q).
  replace (base + M) with ((p * 256 * k + m * k) * a) by (rewrite P, E; replace PAGE_SIZE with (256 * 16) by reflexivity; rewrite K; ring). apply Z.mod_mul. lia.
Qed.

(** Simulation: for sample types of at most std::max_align_t alignment, with any number of getter,
    setter and tracing slots, typed or generic, the simulated size suffices to construct the service. *)
Theorem C29_simulation_suffices_partial : forall base M k es size,
  valid_consts k -> Forall plain_elem es -> SimulatedDataSize k es = Ok size -> real_region base M size ->
  exists addrs, construct_service base M k es size = Ok (addrs, M + size).
Proof.
  intros base M k es size VC PE SIM RR. unfold SimulatedDataSize in SIM. unfold construct_service.
  destruct (real_sequence k es) as [l| |] eqn:RS; try discriminate. cbn [bind] in SIM.
  pose proof RR as (B & _ & MM & _ & S0 & VH & BV).
  unfold add_sz. destruct (Z.ltb_spec (size + M) W64); [|lia]. cbn [bind].
  unfold real_sequence in RS. destruct (mapr real_array es) as [arrays| |] eqn:MR; try discriminate. cbn [bind] in RS. injection RS as <-.
  assert (F : Forall (fun x => is_size (si_size x) /\ fits16 (si_align x)) (data_sequence k (Z.of_nat (length es)) arrays)).
  { apply data_sequence_ok; auto. eapply mapr_ok; [|exact PE|exact MR]. apply real_array_ok. }
  destruct (dry_real base (size + M) M B MM ltac:(lia) ltac:(lia) (data_sequence k (Z.of_nat (length es)) arrays) 0 size) as (addrs & A); try lia; auto.
  - eapply Forall_impl; [|exact F]. intros x [X1 [X2 _]]. split; auto.
  - eapply Forall_impl; [|exact F]. intros x [X1 X2]. split; [eapply fits16_base; eauto|apply fits16_page; exact X2].
  - rewrite Z.add_0_r in A. eauto.
Qed.

(** Estimation: additionally no getter or setter slots, and generic sample sizes that are multiples of
    their alignment. *)
Theorem C29_estimation_suffices_partial : forall base M k es size,
  valid_consts k -> Forall plain_elem es ->
  Forall (fun e => e_extra e = 0 /\ (e_generic e = true -> multiple (e_size e) (e_align e))) es ->
  CalculateDataShmResourceStorageSize k es = Ok size -> real_region base M size ->
  exists addrs, construct_service base M k es size = Ok (addrs, M + size).
Proof.
  intros base M k es size VC PE NX EST RR. unfold construct_service.
  pose proof RR as (B & _ & MM & _ & S0 & VH & BV).
  unfold add_sz. destruct (Z.ltb_spec (size + M) W64); [|lia]. cbn [bind].
  assert (MR : mapr real_array es = Ok (map estimated_array es)).
  { clear EST RR. induction es as [|e es IH]; [reflexivity|]. inversion PE as [|? ? PE1 PE2]; subst. inversion NX as [|? ? NX1 NX2]; subst.
    cbn [mapr map]. destruct PE1 as (S & [P16 (c & C)] & SL & EX). destruct NX1 as [X0 MU]. pose proof (pow2_pos _ P16).
    replace (real_array e) with (Ok (estimated_array e)).
    - cbn [bind]. rewrite IH by auto. reflexivity.
    - unfold real_array, estimated_array. rewrite X0, Z.add_0_r. destruct (e_generic e); [|reflexivity].
      destruct (Z.ltb_spec MAX_ALIGN (e_align e)); [exfalso; unfold MAX_ALIGN in *; assert (0 < c) by nia; nia|].
      destruct (MU eq_refl) as (m & Em).
      assert (CA : CalculateAlignedSize (e_size e) (e_align e) = Ok (e_size e)).
      { unfold CalculateAlignedSize. destruct (Z.eqb_spec (e_align e) 0); [lia|]. rewrite Em at 1. rewrite Z.mod_mul by lia. reflexivity. }
      rewrite CA. cbn [bind]. rewrite (Z.mul_comm (e_size e)). reflexivity. }
  unfold real_sequence. rewrite MR. cbn [bind]. fold (estimated_sequence k es).
  assert (F : Forall (fun x => is_size (si_size x) /\ fits16 (si_align x)) (estimated_sequence k es)).
  { apply data_sequence_ok; auto. eapply mapr_ok; [|exact PE|exact MR]. apply real_array_ok. }
  destruct (C27_exact base (size + M) M (estimated_sequence k es) size B ltac:(lia) ltac:(lia) ltac:(lia)) as [H1 _]; auto.
  - unfold estimated_sequence, data_sequence. discriminate.
  - eapply Forall_impl; [|exact F]. intros x [X1 [X2 _]]. split; auto.
  - eapply Forall_impl; [|exact F]. intros x [X1 X2]. pose proof (fits16_base _ _ _ _ RR X2). exists ((base + M) / si_align x).
    pose proof (pow2_pos _ (proj1 X2)). pose proof (Z.div_mod (base + M) (si_align x) ltac:(lia)). lia.
  - destruct (H1 ltac:(lia)) as (addrs & A). eauto.
Qed.

Definition some_consts : consts := mkC (mkSI 192 8) (mkSI 64 8) (mkSI 72 8) (mkSI 56 8).

(** A field with a getter: the estimation forgets its slot and the provider terminates. *)
Theorem C29_estimation_getter_refuted : exists base M es size,
  Forall plain_elem es /\ CalculateDataShmResourceStorageSize some_consts es = Ok size /\ real_region base M size /\
  construct_service base M some_consts es size = Term.
Proof.
  exists 65536, 32, [mkElem false 8 8 3 1], 408.
  split; [repeat constructor; cbn; unfold W64; try lia; [exists 3; split; [lia|reflexivity]|exists 2; reflexivity]|].
  split; [reflexivity|]. split; [|vm_compute; reflexivity].
  unfold real_region, multiple, PAGE_SIZE, H63, W64. repeat split; try lia; [exists 16; lia|exists 2; lia].
Qed.

(** A generic event whose sample size is not a multiple of its alignment: the estimation forgets the
    padding between the samples. *)
Theorem C29_estimation_generic_refuted : exists base M es size,
  Forall plain_elem es /\ Forall (fun e => e_extra e = 0) es /\
  CalculateDataShmResourceStorageSize some_consts es = Ok size /\ real_region base M size /\
  construct_service base M some_consts es size = Term.
Proof.
  exists 65536, 32, [mkElem true 9 8 4 0], 432.
  split; [repeat constructor; cbn; unfold W64; try lia; [exists 3; split; [lia|reflexivity]|exists 2; reflexivity]|].
  split; [repeat constructor|]. split; [reflexivity|]. split; [|vm_compute; reflexivity].
  unfold real_region, multiple, PAGE_SIZE, H63, W64. repeat split; try lia; [exists 16; lia|exists 2; lia].
Qed.

(** A sample type with larger alignment: the simulation starts at a page boundary, the real memory
    behind the management data. *)
Theorem C29_simulation_overaligned_refuted : exists base M es size,
  Forall (fun e => is_size (e_size e) /\ pow2 (e_align e) /\ e_extra e = 0) es /\
  SimulatedDataSize some_consts es = Ok size /\ real_region base M size /\
  construct_service base M some_consts es size = Term.
Proof.
  exists 65536, 32, [mkElem false 64 64 2 0], 512.
  split; [repeat constructor; cbn; unfold W64; try lia; exists 6; split; [lia|reflexivity]|].
  split; [reflexivity|]. split; [|vm_compute; reflexivity].
  unfold real_region, multiple, PAGE_SIZE, H63, W64. repeat split; try lia; [exists 16; lia|exists 2; lia].
Qed.

Example C29_example :
  let es := [mkElem false 40 8 10 0; mkElem false 4 4 1 0] in
  let fs := [mkElem false 40 8 10 2; mkElem true 9 8 4 1] in
  Forall plain_elem es /\ Forall plain_elem fs /\ valid_consts some_consts /\
  CalculateDataShmResourceStorageSize some_consts es = SimulatedDataSize some_consts es /\
  SimulatedDataSize some_consts es = Ok 980 /\ real_region 65536 32 980 /\
  SimulatedDataSize some_consts fs = Ok 1136 /\
  construct_service 65536 32 some_consts fs 1136 = Ok ([65568; 65760; 65888; 66032; 66088; 66568; 66624], 1168).
Proof.
  cbn zeta. assert (F8 : fits16 8) by (split; [exists 3; split; [lia|reflexivity]|exists 2; reflexivity]).
  assert (F4 : fits16 4) by (split; [exists 2; split; [lia|reflexivity]|exists 4; reflexivity]).
  split; [repeat constructor; cbn; unfold W64; auto; try lia; apply F8 || apply F4|].
  split; [repeat constructor; cbn; unfold W64; auto; try lia; apply F8 || apply F4|].
  split; [repeat constructor; cbn; unfold W64; auto; try lia; apply F8|].
  split; [reflexivity|]. split; [reflexivity|].
  split; [unfold real_region, multiple, PAGE_SIZE, H63, W64; repeat split; try lia; [exists 16; lia|exists 2; lia]|].
  vm_compute. split; reflexivity.
Qed.

Print Assumptions C26_smallest_multiple.
Print Assumptions C26_when_it_terminates.
Print Assumptions C27_exact.
Print Assumptions C28_inside_and_aligned.
Print Assumptions C28_disjoint.
Print Assumptions C28_aligned_in_every_process.
Print Assumptions C28_blocks_stay.
Print Assumptions C28_fits.
Print Assumptions C29_simulation_suffices_partial.
Print Assumptions C29_estimation_suffices_partial.
Print Assumptions C61_partial.
