(** C113: a container in shared memory gets its memory from the region it lives in. *)
From Verif Require Import PxModel PxSpec PxProof.
From Verif Require AllocProps.
Local Open Scope Z_scope.

(** ** What holds *)
(** Whatever other processes have written before: every block handed out lies, aligned, in the region that holds the
    proxy. Missing for the full property: proxies changed during a call, size simulations in the same process, and
    proxies at the address at which a region ends (refuted below). *)
Theorem C113_own_memory_partial : forall s e, reach orderly s -> In e (log s) ->
  lies_in s (e_res e) (e_proxy e) /\ block_in s (e_res e) e /\ e_addr e mod e_al e = 0.
Proof. intros s e R H. destruct (i_log _ (inv_reach s R) e H) as (_ & A & B & C). auto. Qed.

Theorem C113_no_undefined_behaviour_partial : forall s, reach orderly s -> ub s = false.
Proof. intros s R. exact (i_ub _ (inv_reach s R)). Qed.

(** The region that holds a proxy is unique. *)
Theorem C113_one_home : forall s r r' p, reach anything s ->
  live s r = true -> live s r' = true -> osim (objs s r) = false -> osim (objs s r') = false ->
  lies_in s r p -> lies_in s r' p -> r = r'.
Proof. intros s r r' p R. exact (g_disj _ (geo_reach _ _ R) r r' p). Qed.

(** The size in bytes never wraps around. *)
Theorem C113_size_exact : forall s e, reach anything s -> In e (log s) -> 0 <= e_n e * e_sz e < W64.
Proof. intros s e R. exact (g_log _ (geo_reach _ _ R) e). Qed.

(** A request whose size overflows ends the process and hands out nothing. *)
Theorem C113_overflow_stops : forall s t p n sz a s', W64 <= n * sz ->
  step s (LCall t p n sz a) = Some s' -> dead s' = true /\ log s' = log s.
Proof.
  intros s t p n sz a s' O H. unfold step in H. destruct (dead s || ub s); [discriminate|]. destruct (thr s t); try discriminate.
  destruct (_ && _); [|discriminate]. injection H as <-. unfold call. rewrite (proj2 (Z.leb_le _ _) O). cbn. auto.
Qed.

(** A proxy that names a region in which it does not lie (nor at its end) is noticed when the call begins. *)
Theorem C113_forged_name_stops : forall s t p n sz a s' r, reach anything s ->
  find (word s p) (reg s) = Some r -> osim (objs s r) = false -> ~ lies_in s r p -> p <> obase (objs s r) + osize (objs s r) ->
  step s (LCall t p n sz a) = Some s' -> dead s' = true /\ log s' = log s.
Proof.
  intros s t p n sz a s' r _ F S0 L E H. unfold step in H. destruct (dead s || ub s); [discriminate|]. destruct (thr s t); try discriminate.
  destruct (_ && _); [|discriminate]. injection H as <-. unfold call.
  destruct (W64 <=? n * sz); [cbn; auto|]. rewrite F. unfold start_of, end_of. rewrite S0. unfold lies_in in L.
  destruct (Z.leb_spec (obase (objs s r)) p); [|cbn; auto].
  destruct (Z.leb_spec p (obase (objs s r) + osize (objs s r))); [lia|cbn; auto].
Qed.

(** An unknown name is noticed too, also if the region has been removed in the meantime. *)
Theorem C113_unknown_name_stops : forall s t p n sz a s', find (word s p) (reg s) = None ->
  step s (LCall t p n sz a) = Some s' -> dead s' = true /\ log s' = log s.
Proof.
  intros s t p n sz a s' F H. unfold step in H. destruct (dead s || ub s); [discriminate|]. destruct (thr s t); try discriminate.
  destruct (_ && _); [|discriminate]. injection H as <-. unfold call.
  destruct (W64 <=? n * sz); [cbn; auto|]. rewrite F. cbn. auto.
Qed.

Lemma updn_same {A} (f : nat -> A) k v : updn f k v k = v.
Proof. unfold updn. rewrite Nat.eqb_refl. reflexivity. Qed.

(** An honest proxy is served, by its own region, at the next free aligned address, as long as the block fits. *)
Theorem C113_served : forall s t p n sz a r, reach anything s ->
  dead s = false -> ub s = false -> thr s t = Idle -> 0 <= n -> 0 < sz -> 0 < a ->
  find (word s p) (reg s) = Some r -> live s r = true -> osim (objs s r) = false -> lies_in s r p ->
  (exists q, obase (objs s r) + cntr s r <= q /\ q mod a = 0 /\ q + n * sz <= obase (objs s r) + osize (objs s r)) ->
  exists s' q, run s [LCall t p n sz a; LGo t 0; LGo t 0] = Some s' /\ dead s' = false /\ thr s' t = Idle /\
    log s' = mkEv p n sz a r q :: log s /\ obase (objs s r) + cntr s r <= q < obase (objs s r) + cntr s r + a /\ q mod a = 0.
Proof.
  intros s t p n sz a r R DE UB0 T N SZ AL F L S0 LI (q0 & Q1 & Q2 & Q3). pose proof (geo_reach _ _ R) as G.
  destruct (g_geo _ G r (g_live _ G r L) S0) as (G1 & G2 & G3 & G4).
  pose proof (AllocProps.align_up_spec (obase (objs s r) + cntr s r) a AL) as [M Q].
  assert (QLE : align_up (obase (objs s r) + cntr s r) a <= q0).
  { pose proof (Z.div_mod q0 a ltac:(lia)). pose proof (Z.div_mod (align_up (obase (objs s r) + cntr s r) a) a ltac:(lia)).
    rewrite Q2 in *. rewrite M in *. destruct (Z_le_gt_dec (align_up (obase (objs s r) + cntr s r) a / a) (q0 / a)); nia. }
  assert (NS : n * sz < W64) by nia.
  unfold lies_in in LI.
  assert (ST1 : step s (LCall t p n sz a) = Some (set_thr s t (PAt p n sz a))).
  { unfold step. rewrite DE, UB0, T. cbn [orb].
    rewrite (proj2 (Z.leb_le 0 n) N), (proj2 (Z.ltb_lt 0 sz) SZ), (proj2 (Z.ltb_lt 0 a) AL). cbn [andb]. unfold call.
    destruct (Z.leb_spec W64 (n * sz)); [lia|]. rewrite F. unfold start_of, end_of. rewrite S0.
    destruct (Z.leb_spec (obase (objs s r)) p); [|lia]. destruct (Z.leb_spec p (obase (objs s r) + osize (objs s r))); [|lia]. reflexivity. }
  cbn [run]. rewrite ST1. unfold step. cbn [set_thr dead ub thr]. rewrite DE, UB0, updn_same. cbn [orb].
  unfold look_up. cbn [set_thr word reg]. rewrite F. cbn [set_thr dead ub thr]. rewrite DE, UB0, updn_same. cbn [orb].
  unfold use. cbn [set_thr live objs cntr nobj reg word heap thr log dead ub]. rewrite L. cbn [negb]. rewrite S0.
  rewrite AllocProps.reserve_spec by (unfold AllocProps.is_size; nia).
  destruct (Z.leb_spec (align_up (obase (objs s r) + cntr s r) a + n * sz) (obase (objs s r) + osize (objs s r))); [|lia].
  eexists. eexists. split; [reflexivity|]. cbn. rewrite updn_same. repeat split; auto; lia.
Qed.

(** Giving a block back twice in a process that simulates sizes is undefined, whatever else is on the heap; in shared
    memory giving back changes nothing, so that it is harmless there. *)
Theorem C113_double_free : forall s p q r, find (word s p) (reg s) = Some r -> live s r = true ->
  (osim (objs s r) = true -> ub (free (free s p q) p q) = true) /\
  (osim (objs s r) = false -> free (free s p q) p q = s).
Proof.
  intros s p q r F L. split; intros O.
  - unfold free at 2. rewrite F, L, O. cbn [negb].
    destruct (existsb (fun b => snd b =? q) (heap s)) eqn:E.
    + unfold free. cbn. rewrite F, L, O. cbn [negb].
      replace (existsb (fun b => snd b =? q) (filter (fun b => negb (snd b =? q)) (heap s))) with false; [reflexivity|].
      symmetry. clear. induction (heap s) as [|b h IH]; [reflexivity|]. cbn.
      destruct (snd b =? q) eqn:E; cbn; [exact IH|]. rewrite E. exact IH.
    + unfold free, set_ub. cbn. rewrite F, L, O. cbn [negb]. rewrite E. reflexivity.
  - assert (K: free s p q = s) by (unfold free; rewrite F, L, O; reflexivity). now rewrite !K.
Qed.
Print Assumptions C113_double_free.

(** ** What does not hold *)
Definition A0 : Z := 65536.
(** The identifier is read from shared memory twice, once for the check and once for the look-up. A process that can
    write to the memory and changes it in between makes this process allocate from another region, outside of the
    memory in which the container lives. *)
Definition double_fetch : list label :=
  [LMap 1 A0 4096 16 false; LMap 2 (A0 + 8192) 4096 16 false;
   LCall 0 (A0 + 8) 4 8 8; LTamper (A0 + 8) 2; LGo 0 0; LGo 0 0].
Theorem C113_double_fetch_refuted : exists s e, run init double_fetch = Some s /\ log s = [e] /\
  lies_in s 0 (e_proxy e) /\ ~ block_in s 0 e /\ block_in s 1 e /\ dead s = false /\ ub s = false.
Proof.
  eexists. eexists. split; [vm_compute; reflexivity|]. split; [vm_compute; reflexivity|].
  unfold lies_in, block_in. cbn. repeat split; try lia; try reflexivity.
Qed.

(** The end address of a region counts as inside. A proxy at the beginning of the next region passes the check
    with the name of the region before it, and the block comes from that region. *)
Definition next_door : list label :=
  [LMap 1 A0 4096 16 false; LMap 2 (A0 + 4096) 4096 16 false; LTamper (A0 + 4096) 1;
   LCall 0 (A0 + 4096) 4 8 8; LGo 0 0; LGo 0 0].
Theorem C113_end_address_refuted : exists s e, run init next_door = Some s /\ log s = [e] /\
  lies_in s 1 (e_proxy e) /\ ~ lies_in s 0 (e_proxy e) /\ block_in s 0 e /\ ~ block_in s 1 e.
Proof.
  eexists. eexists. split; [vm_compute; reflexivity|]. split; [vm_compute; reflexivity|].
  unfold lies_in, block_in. cbn. repeat split; lia.
Qed.

(** The resource with which sizes are calculated by simulation claims nearly the whole address space as its own. While
    it exists, a proxy in shared memory that has been given its name passes the check, and a container in shared
    memory gets memory from the heap of this process, unreachable for the others. *)
Definition simulated : list label :=
  [LMap 1 A0 4096 16 false; LMap 99 0 0 0 true; LTamper (A0 + 8) 99; LCall 0 (A0 + 8) 4 8 8; LGo 0 0; LGo 0 1048576].
Theorem C113_simulation_refuted : exists s e, run init simulated = Some s /\ log s = [e] /\
  lies_in s 0 (e_proxy e) /\ ~ block_in s 0 e /\ e_addr e = 1048576 /\ dead s = false /\ ub s = false.
Proof.
  eexists. eexists. split; [vm_compute; reflexivity|]. split; [vm_compute; reflexivity|].
  unfold lies_in, block_in. cbn. repeat split; try lia; try reflexivity.
Qed.

(** Deallocation is not checked at all: with the name of the simulation resource in its proxy, a container in shared
    memory hands a block of shared memory to the heap, which is undefined. (The resource looks whether it knows the
    block only after it has given it to the heap.) *)
Definition forged_free : list label :=
  [LMap 1 A0 4096 16 false; LCall 0 (A0 + 8) 4 8 8; LGo 0 0; LGo 0 0; LMap 99 0 0 0 true; LTamper (A0 + 8) 99; LFree 0 (A0 + 8) (A0 + 16)].
Theorem C113_forged_free_refuted : exists s, run init forged_free = Some s /\ ub s = true.
Proof. eexists. split; [vm_compute; reflexivity|reflexivity]. Qed.

(** A region given up while a thread allocates in it is used after it is unmapped. *)
Definition removed : list label := [LMap 1 A0 4096 16 false; LCall 0 (A0 + 8) 4 8 8; LGo 0 0; LUnreg 0; LUnmap 0; LGo 0 0].
Theorem C113_removed_refuted : exists s, run init removed = Some s /\ ub s = true.
Proof. eexists. split; [vm_compute; reflexivity|reflexivity]. Qed.

(** ** Containers without proxy *)
Theorem C113_heap_partial : forall n sz a k m q, malloc_answer m -> m <> 0 -> 0 <= k <= 4 -> a = 2 ^ k ->
  heap_allocate n sz a m = Ok q -> usable a q /\ n * sz < W64.
Proof.
  intros n sz a k m q [->|[M1 M2]] NZ K -> H; [contradiction|]. unfold heap_allocate in H. destruct (Z.leb_spec W64 (n * sz)); [discriminate|].
  injection H as <-. split; [|lia]. split; [exact NZ|].
  assert (D : (2 ^ k | 16)) by (exists (2 ^ (4 - k)); rewrite <- Z.pow_add_r by lia; replace (4 - k + k) with 4 by lia; reflexivity).
  assert (D' : (16 | m)) by (apply Z.mod_divide; [lia|exact M2]).
  apply Z.mod_divide; [pose proof (Z.pow_pos_nonneg 2 k); lia|]. eapply Z.divide_trans; eauto.
Qed.
(** A default-constructed allocator ignores the alignment of the element type: over-aligned elements get misaligned
    memory. *)
Theorem C113_heap_alignment_refuted : exists n sz a m q, malloc_answer m /\ a = 2 ^ 6 /\ sz mod a = 0 /\
  heap_allocate n sz a m = Ok q /\ q <> 0 /\ ~ usable a q.
Proof.
  exists 1, 64, 64, 1040, 1040. unfold malloc_answer, usable. repeat split; try reflexivity; try (right; split; [lia|reflexivity]); try lia.
Qed.
(** And it hands on the null pointer of an exhausted heap as if it were memory. *)
Theorem C113_heap_exhausted_refuted : exists n sz a m, malloc_answer m /\ 0 < n * sz /\ heap_allocate n sz a m = Ok 0.
Proof. exists 4, 8, 8, 0. unfold malloc_answer. repeat split; auto; lia. Qed.

(** ** The hypotheses are met *)
Definition plain : list label :=
  [LMap 1 A0 4096 16 false; LMap 2 (A0 + 8192) 4096 16 false; LTamper (A0 + 100) 1; LCall 0 (A0 + 8) 4 8 8; LGo 0 0;
   LCall 1 (A0 + 8192 + 8) 3 4 64; LGo 1 0; LGo 0 0; LGo 1 0; LCall 0 (A0 + 100) 1 1 1; LGo 0 0; LGo 0 0; LFree 0 (A0 + 8) (A0 + 16);
   LUnreg 1; LUnmap 1].

Lemma reach_run ok ls : forall s s', reach ok s -> run s ls = Some s' ->
  (forall pre l post u, ls = pre ++ l :: post -> run s pre = Some u -> ok u l) -> reach ok s'.
Proof.
  induction ls as [|l ls IH]; intros s s' R H O; [injection H as <-; exact R|].
  cbn in H. destruct (step s l) as [u|] eqn:E; [|discriminate]. apply (IH u); auto.
  - econstructor; eauto. apply (O [] l ls s); reflexivity.
  - intros pre l' post w -> Q. apply (O (l :: pre) l' post w); [reflexivity|]. cbn. rewrite E. exact Q.
Qed.

Example C113_plain : exists s, run init plain = Some s /\ reach orderly s /\
  map (fun e => (e_res e, e_addr e)) (log s) = [(0%nat, A0 + 48); (1%nat, A0 + 8192 + 64); (0%nat, A0 + 16)].
Proof.
  eexists. split; [vm_compute; reflexivity|]. split; [|vm_compute; reflexivity].
  eapply (reach_run orderly plain init); [constructor|vm_compute; reflexivity|].
  intros pre l post u E R.
  do 16 (destruct pre as [|? pre]; [injection E as <- <-; injection R as <-;
     unfold orderly, calm_proxy, kept, no_simulation, apart, calling, lies_in; cbn -[A0]; repeat split; auto; try (intros; lia);
     try (intros [|[|r]]; cbn; intros; unfold A0; lia);
     try (intros [|[|t]]; cbn; tauto);
     try (intros [|[|t]] p; cbn; intros; tauto)
    |try (destruct pre; discriminate E); injection E as <- E; cbn [run] in R; vm_compute step in R]).
  all: try discriminate E.
Qed.

Print Assumptions C113_own_memory_partial.
Print Assumptions C113_no_undefined_behaviour_partial.
Print Assumptions C113_one_home.
Print Assumptions C113_size_exact.
Print Assumptions C113_overflow_stops.
Print Assumptions C113_forged_name_stops.
Print Assumptions C113_unknown_name_stops.
Print Assumptions C113_served.
Print Assumptions C113_double_fetch_refuted.
Print Assumptions C113_end_address_refuted.
Print Assumptions C113_simulation_refuted.
Print Assumptions C113_forged_free_refuted.
Print Assumptions C113_removed_refuted.
Print Assumptions C113_heap_partial.
Print Assumptions C113_heap_alignment_refuted.
Print Assumptions C113_heap_exhausted_refuted.
Print Assumptions C113_plain.
