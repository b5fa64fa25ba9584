(** C106: the shared memory created for control data and for methods is large enough for what is
    placed in it. *)
From Verif Require Import AllocProps SizeModel OffsetPtrProps.
Local Open Scope Z_scope.

(** * Specification *)

(** the parts of [l], placed at [addrs], are aligned, follow each other without overlap and lie
    between the addresses [lo] and [hi] *)
Inductive placed : Z -> Z -> list sinfo -> list Z -> Prop :=
| placed_nil lo hi : lo <= hi -> placed lo hi [] []
| placed_cons lo hi x l a addrs :
    lo <= a -> multiple a (si_align x) -> placed (a + si_size x) hi l addrs ->
    placed lo hi (x :: l) (a :: addrs).

(** sizeof and alignof of a type whose alignment is not larger than that of std::max_align_t *)
Definition plain_info (x : sinfo) : Prop := is_size (si_size x) /\ fits16 (si_align x).
(** sizeof is a multiple of alignof *)
Definition of_type (x : sinfo) : Prop := multiple (si_size x) (si_align x).

Definition plain_cconsts (k : cconsts) : Prop :=
  Forall plain_info [kc_control k; kc_entry k; kc_app k; kc_slot k; kc_logslot k; kc_node k].
(** numbers of slots fit into the configuration's std::uint16_t, subscribers into std::uint8_t *)
Definition config_elem (e : celem) : Prop :=
  0 <= ce_slots e < 65536 /\ 0 <= ce_extra e /\ 0 <= ce_subs e < 256.

Definition plain_mconsts (k : mconsts) : Prop :=
  plain_info (km_data k) /\ plain_info (km_elem k) /\ of_type (km_elem k).
Definition method_types (P : sinfo -> Prop) (m : minfo) : Prop :=
  (forall x, mi_in m = Some x -> P x) /\ (forall x, mi_ret m = Some x -> P x).

(** * Lemmas *)

(** where a sequence of allocations from address [s] ends *)
Fixpoint endof (s : Z) (l : list sinfo) : Z :=
  match l with [] => s | x :: l => endof (align_up s (si_align x) + si_size x) l end.

Lemma endof_app l1 : forall s l2, endof s (l1 ++ l2) = endof (endof s l1) l2.
Proof. induction l1; intros; cbn; auto. Qed.

Lemma align_up_mono x y a : 0 < a -> x <= y -> align_up x a <= align_up y a.
Proof.
  intros A L. unfold align_up. apply Z.mul_le_mono_nonneg_r; [lia|]. apply Z.div_le_mono; lia.
Qed.

Lemma endof_ge l : forall s, Forall valid_info l -> s <= endof s l.
Proof.
  induction l as [|x l IH]; intros s F; cbn [endof]; [lia|]. inversion F as [|? ? [SX PX] F']; subst.
  destruct (align_up_spec s (si_align x) (pow2_pos _ PX)) as [_ B]. unfold is_size in SX.
  specialize (IH (align_up s (si_align x) + si_size x) F'). lia.
Qed.

(** [l] asks for no more than [l'] *)
Inductive within : list sinfo -> list sinfo -> Prop :=
| w_nil : within [] []
| w_keep x y l l' : si_align x = si_align y -> si_size x <= si_size y -> within l l' -> within (x :: l) (y :: l')
| w_drop y l l' : within l l' -> within l (y :: l').

Lemma within_refl l : within l l.
Proof. induction l; constructor; auto; lia. Qed.

Lemma within_app a b c d : within a b -> within c d -> within (a ++ c) (b ++ d).
Proof. intros H1 H2. induction H1; cbn; try constructor; auto. Qed.

Lemma endof_within l l' : within l l' -> forall s s', Forall valid_info l' -> s <= s' -> endof s l <= endof s' l'.
Proof.
  intros W. induction W as [|x y l l' A S W IH|y l l' W IH]; intros s s' F L; cbn [endof]; [lia| |].
  - inversion F as [|? ? [SY PY] F']; subst. apply IH; auto. rewrite A.
    pose proof (align_up_mono s s' (si_align y) (pow2_pos _ PY) L). lia.
  - inversion F as [|? ? [SY PY] F']; subst. apply IH; auto. unfold is_size in SY.
    destruct (align_up_spec s' (si_align y) (pow2_pos _ PY)) as [_ B]. lia.
Qed.

Lemma alloc_end base V : 0 <= base -> V < H63 -> base + V < W64 -> forall l cur,
  0 <= cur <= V -> Forall valid_info l -> endof (base + cur) l <= base + V ->
  exists addrs, allocate_all base V cur l = Ok (addrs, endof (base + cur) l - base) /\
                placed (base + cur) (endof (base + cur) l) l addrs.
Proof.
  intros B VH BV. induction l as [|x l IH]; intros cur C F E; cbn [allocate_all endof] in *.
  - exists []. split; [do 2 f_equal; lia|constructor; lia].
  - inversion F as [|? ? [SX PX] F']; subst. pose proof (pow2_pos _ PX) as PA.
    destruct (align_up_spec (base + cur) (si_align x) PA) as [AM AB].
    pose proof (endof_ge l (align_up (base + cur) (si_align x) + si_size x) F').
    rewrite reserve_spec by (auto; lia).
    destruct (Z.leb_spec (align_up (base + cur) (si_align x) + si_size x) (base + V)); [|lia].
    cbn [bind fst snd].
    replace (align_up (base + cur) (si_align x) + si_size x)
      with (base + (align_up (base + cur) (si_align x) - base + si_size x)) in * by lia.
    unfold is_size in SX.
    destruct (IH (align_up (base + cur) (si_align x) - base + si_size x)) as (addrs & -> & PL); auto; [lia|].
    cbn [bind fst snd]. eexists. split; [reflexivity|]. constructor; [lia| |].
    + exists (align_up (base + cur) (si_align x) / si_align x).
      pose proof (Z.div_mod (align_up (base + cur) (si_align x)) (si_align x) ltac:(lia)). lia.
    + replace (align_up (base + cur) (si_align x) + si_size x)
        with (base + (align_up (base + cur) (si_align x) - base + si_size x)) by lia. exact PL.
Qed.

Lemma alloc_endof base V : 0 <= base -> V < H63 -> base + V < W64 -> forall l cur addrs n,
  0 <= cur <= V -> Forall valid_info l -> allocate_all base V cur l = Ok (addrs, n) ->
  endof (base + cur) l = base + n /\ n <= V.
Proof.
  intros B VH BV. induction l as [|x l IH]; intros cur addrs n C F E; cbn [allocate_all endof] in *.
  - injection E as _ <-. lia.
  - inversion F as [|? ? [SX PX] F']; subst. pose proof (pow2_pos _ PX) as PA.
    destruct (align_up_spec (base + cur) (si_align x) PA) as [AM AB]. unfold is_size in SX.
    rewrite reserve_spec in E by (auto; lia).
    destruct (Z.leb_spec (align_up (base + cur) (si_align x) + si_size x) (base + V)); [|discriminate].
    cbn [bind fst snd] in E.
    destruct (allocate_all base V (align_up (base + cur) (si_align x) - base + si_size x) l) as [[a' n']| |] eqn:AE; try discriminate.
    cbn [bind fst snd] in E. injection E as _ <-.
    apply IH in AE; auto; [|lia].
    replace (align_up (base + cur) (si_align x) + si_size x)
      with (base + (align_up (base + cur) (si_align x) - base + si_size x)) by lia. exact AE.
Qed.

(** the calculated size is where the sequence ends, counted from an address that meets all alignments *)
Lemma size_endof base V cur l t : 0 <= base -> 0 <= cur <= V -> V < H63 -> base + V < W64 -> l <> [] ->
  Forall valid_info l -> Forall (fun x => multiple (base + cur) (si_align x)) l ->
  CalculateAlignedSizeOfSequence l = Ok t -> t <= V - cur -> endof (base + cur) l = base + cur + t.
Proof.
  intros B C VH BV NE VI DV E T.
  destruct (C27_exact base V cur l t B C VH BV NE VI DV E) as [H1 _]. destruct (H1 T) as (addrs & A).
  apply alloc_endof in A; auto. lia.
Qed.

Lemma plain_valid x : plain_info x -> valid_info x.
Proof. intros [A [B _]]. split; auto. Qed.

Lemma plain_multiple base M size x : real_region base M size -> plain_info x -> multiple (base + M) (si_align x).
Proof.
  intros R [_ F]. pose proof (fits16_base _ _ _ _ R F) as E. pose proof (pow2_pos _ (proj1 F)).
  exists ((base + M) / si_align x). pose proof (Z.div_mod (base + M) (si_align x) ltac:(lia)). lia.
Qed.

Lemma plain_arr n x : plain_info x -> plain_info (arr n x).
Proof. intros [S F]. split; [cbn; unfold is_size, wrap; apply Z.mod_pos_bound; reflexivity|exact F]. Qed.

Lemma placed_widen lo hi hi' l addrs : hi <= hi' -> placed lo hi l addrs -> placed lo hi' l addrs.
Proof. intros L P. induction P; constructor; auto; lia. Qed.

(** ** Control data *)
Lemma est_event_ok k e : plain_cconsts k -> Forall plain_info (est_event k e).
Proof.
  unfold plain_cconsts. rewrite !Forall_cons_iff. intros (_ & _ & _ & K4 & K5 & K6 & _).
  unfold est_event. repeat (constructor; [apply plain_arr; assumption|]).
  apply Forall_app. split; [|constructor; [apply plain_arr; assumption|constructor]].
  apply Forall_forall. intros x I. apply repeat_spec in I. subst. apply plain_arr; assumption.
Qed.

Lemma est_control_ok k es : plain_cconsts k -> Forall plain_info (est_control k es).
Proof.
  intros K. pose proof K as K'. unfold plain_cconsts in K'. rewrite !Forall_cons_iff in K'.
  destruct K' as (K1 & K2 & K3 & _). unfold est_control.
  constructor; [exact K1|]. do 2 (constructor; [apply plain_arr; assumption|]).
  apply Forall_forall. intros x I. apply in_flat_map in I as (e & _ & I).
  exact (proj1 (Forall_forall _ _) (est_event_ok k e K) x I).
Qed.

Lemma arr_alloc_ok z n x : plain_info x -> Forall plain_info (arr_alloc z n x).
Proof. intros P. unfold arr_alloc. destruct (_ && _); [constructor|constructor; [apply plain_arr; exact P|constructor]]. Qed.

Lemma real_control_ok z k es : plain_cconsts k -> Forall plain_info (real_control z k es).
Proof.
  unfold plain_cconsts. rewrite !Forall_cons_iff. intros (K1 & K2 & K3 & K4 & K5 & K6 & _).
  unfold real_control. constructor; [exact K1|].
  apply Forall_app; split; [apply arr_alloc_ok; assumption|].
  apply Forall_app; split; [apply arr_alloc_ok; assumption|].
  apply Forall_forall. intros x I. apply in_flat_map in I as (e & _ & I). revert x I. apply Forall_forall.
  unfold real_event. cbv zeta.
  repeat (apply Forall_app; split); try (apply arr_alloc_ok; assumption).
  apply Forall_forall. intros x I. apply in_concat in I as (l & L & I). apply repeat_spec in L. subst.
  revert x I. apply Forall_forall. apply arr_alloc_ok; assumption.
Qed.

Lemma within_arr z n n' x : n = n' -> within (arr_alloc z n x) [arr n' x].
Proof.
  intros ->. unfold arr_alloc. destruct (_ && _); [apply w_drop, w_nil|apply within_refl].
Qed.

Lemma within_repeat l x n : within l [x] -> within (concat (repeat l n)) (repeat x n).
Proof.
  intros W. induction n; cbn; [constructor|]. change (x :: repeat x n) with ([x] ++ repeat x n). apply within_app; auto.
Qed.

Lemma within_event z k e : config_elem e -> ce_extra e = 0 -> within (real_event z k e) (est_event k e).
Proof.
  intros (S & _ & B) X. unfold real_event, est_event. cbv zeta. rewrite X, Z.add_0_r.
  assert (ES : slot_index (ce_slots e) = ce_slots e) by (apply Z.mod_small; lia).
  assert (EB : sub_count (ce_subs e) = ce_subs e) by (apply Z.mod_small; lia).
  rewrite ES, EB.
  change (arr (ce_slots e) (kc_slot k) :: ?l) with ([arr (ce_slots e) (kc_slot k)] ++ l).
  apply within_app; [apply within_arr; reflexivity|].
  match goal with |- within _ (?a :: ?b) => change (a :: b) with ([a] ++ b) end.
  apply within_app; [apply within_arr; reflexivity|].
  match goal with |- within _ (?a :: ?b) => change (a :: b) with ([a] ++ b) end.
  apply within_app; [apply within_arr; reflexivity|].
  apply within_app; [|apply within_arr; reflexivity].
  apply within_repeat, within_arr. reflexivity.
Qed.

Lemma within_control z k es : Forall config_elem es -> Forall (fun e => ce_extra e = 0) es ->
  within (real_control z k es) (est_control k es).
Proof.
  intros C X. unfold real_control, est_control.
  apply w_keep; [reflexivity|lia|].
  match goal with |- within _ (?a :: ?b) => change (a :: b) with ([a] ++ b) end.
  apply within_app; [apply within_arr; reflexivity|].
  match goal with |- within _ (?a :: ?b) => change (a :: b) with ([a] ++ b) end.
  apply within_app; [apply within_arr; reflexivity|].
  induction es as [|e es IH]; cbn [flat_map]; [constructor|]. inversion C; inversion X; subst.
  apply within_app; [apply within_event; assumption|apply IH; assumption].
Qed.

Lemma logs_ok es : Forall config_elem es -> Forall (fun e => ce_subs e <> 255) es -> logs_allowed es = true.
Proof.
  intros C X. apply forallb_forall. intros e I. rewrite Forall_forall in C, X.
  destruct (C e I) as (_ & _ & B). specialize (X e I). unfold sub_count, SENTINEL.
  rewrite Z.mod_small by lia. destruct (Z.eqb_spec (ce_subs e) 255); [contradiction|reflexivity].
Qed.

(** * Theorems *)

(** Analysis: without getter and setter slots, with fewer than 255 subscribers, the calculated size
    suffices for the control data, and everything is placed apart, aligned and inside the region. *)
Theorem C106_control_analysis_partial : forall base M z k es size,
  plain_cconsts k -> Forall config_elem es ->
  Forall (fun e => ce_extra e = 0 /\ ce_subs e <> 255) es ->
  CalculateControlShmResourceStorageSize k es = Ok size -> real_region base M size ->
  exists addrs used, construct_control base M z k es size = Ok (addrs, used) /\ used <= M + size /\
    placed (base + M) (base + M + size) (real_control z k es) addrs.
Proof.
  intros base M z k es size K C X E R. pose proof R as (B & _ & MM & _ & S0 & VH & BV).
  assert (X1 : Forall (fun e => ce_extra e = 0) es) by (eapply Forall_impl; [|exact X]; cbn; tauto).
  assert (X2 : Forall (fun e => ce_subs e <> 255) es) by (eapply Forall_impl; [|exact X]; cbn; tauto).
  pose proof (est_control_ok k es K) as EK. pose proof (real_control_ok z k es K) as RK.
  assert (EV : Forall valid_info (est_control k es)) by (eapply Forall_impl; [|exact EK]; apply plain_valid).
  assert (RV : Forall valid_info (real_control z k es)) by (eapply Forall_impl; [|exact RK]; apply plain_valid).
  unfold construct_control, add_sz. destruct (Z.ltb_spec (size + M) W64); [|lia]. cbn [bind].
  rewrite (logs_ok es C X2).
  assert (EE : endof (base + M) (est_control k es) = base + M + size).
  { apply (size_endof base (size + M) M); auto; try lia; [discriminate|].
    eapply Forall_impl; [|exact EK]. intros x. eapply plain_multiple; eauto. }
  pose proof (endof_within _ _ (within_control z k es C X1) (base + M) (base + M) EV ltac:(lia)) as LE.
  destruct (alloc_end base (size + M) B ltac:(lia) ltac:(lia) (real_control z k es) M ltac:(lia) RV ltac:(lia)) as (addrs & A & P).
  exists addrs, (endof (base + M) (real_control z k es) - base). split; [exact A|]. split; [lia|].
  rewrite EE in LE. exact (placed_widen _ _ _ _ _ LE P).
Qed.

(** Simulation: the size suffices for every configuration with fewer than 255 subscribers. *)
Theorem C106_control_simulation_partial : forall base M z k es size,
  plain_cconsts k -> Forall config_elem es -> Forall (fun e => ce_subs e <> 255) es ->
  SimulatedControlSize z k es = Ok size -> real_region base M size ->
  exists addrs, construct_control base M z k es size = Ok (addrs, M + size) /\
    placed (base + M) (base + M + size) (real_control z k es) addrs.
Proof.
  intros base M z k es size K C X E R. pose proof R as (B & _ & MM & _ & S0 & VH & BV).
  pose proof (real_control_ok z k es K) as RK.
  assert (RV : Forall valid_info (real_control z k es)) by (eapply Forall_impl; [|exact RK]; apply plain_valid).
  unfold SimulatedControlSize in E. unfold construct_control. rewrite (logs_ok es C X) in *.
  unfold add_sz. destruct (Z.ltb_spec (size + M) W64); [|lia]. cbn [bind].
  destruct (dry_real base (size + M) M B MM ltac:(lia) ltac:(lia) (real_control z k es) 0 size) as (addrs & A); try lia; auto.
  - eapply Forall_impl; [|exact RK]. intros x [X1 X2]. split; [eapply fits16_base; eauto|apply fits16_page; exact X2].
  - rewrite Z.add_0_r in A.
    destruct (alloc_endof base (size + M) B ltac:(lia) ltac:(lia) (real_control z k es) M addrs (M + size) ltac:(lia) RV A) as [EE _].
    destruct (alloc_end base (size + M) B ltac:(lia) ltac:(lia) (real_control z k es) M ltac:(lia) RV ltac:(lia)) as (addrs' & A' & P).
    exists addrs'. rewrite A'. rewrite EE in P |- *. split; [do 2 f_equal; lia|].
    replace (base + M + size) with (base + (M + size)) by lia. exact P.
Qed.

Definition some_cconsts : cconsts :=
  mkCC (mkSI 160 8) (mkSI 320 8) (mkSI 8 4) (mkSI 8 8) (mkSI 1 1) (mkSI 72 8).

Lemma some_cconsts_plain : plain_cconsts some_cconsts.
Proof.
  assert (F8 : fits16 8) by (split; [exists 3; split; [lia|reflexivity]|exists 2; reflexivity]).
  assert (F4 : fits16 4) by (split; [exists 2; split; [lia|reflexivity]|exists 4; reflexivity]).
  assert (F1 : fits16 1) by (split; [exists 0; split; [lia|reflexivity]|exists 16; reflexivity]).
  repeat (constructor; [split; [cbn; unfold is_size, W64; lia|assumption]|]). constructor.
Qed.

(** A field with a getter or setter: the analysis does not count the additional slot in the control
    data either; offering such a service ends the provider. *)
Theorem C106_control_analysis_getter_refuted : exists base M es size,
  plain_cconsts some_cconsts /\ Forall config_elem es /\ Forall (fun e => ce_subs e <> 255) es /\
  CalculateControlShmResourceStorageSize some_cconsts es = Ok size /\ real_region base M size /\
  forall z, construct_control base M z some_cconsts es size = Term.
Proof.
  exists 65536, 32, [mkCE 3 1 2], 1065.
  split; [exact some_cconsts_plain|]. split; [repeat constructor; cbn; lia|]. split; [repeat constructor; cbn; lia|].
  split; [vm_compute; reflexivity|]. split; [|intros []; vm_compute; reflexivity].
  unfold real_region, multiple, PAGE_SIZE, H63, W64. repeat split; try lia; [exists 16; lia|exists 2; lia].
Qed.

(** A maximum of 255 subscribers fits into the configuration, yet 255 is reserved in the transaction
    logs: offering a service with such an event ends the provider, whatever the size of the memory,
    and so does the simulation. *)
Theorem C106_subscribers_255_refuted : forall k es e base M z size,
  In e es -> ce_subs e = 255 ->
  construct_control base M z k es size = Term /\ SimulatedControlSize z k es = Term.
Proof.
  intros k es e base M z size I E.
  assert (L : logs_allowed es = false).
  { apply Bool.not_true_is_false. intros T. unfold logs_allowed in T. rewrite forallb_forall in T.
    specialize (T e I). unfold sub_count in T. rewrite E in T. discriminate T. }
  unfold construct_control, SimulatedControlSize. rewrite L. split; [|reflexivity].
  unfold add_sz. destruct (_ <? _); reflexivity.
Qed.

Example C106_control_example :
  let es := [mkCE 10 0 2; mkCE 1 0 0] in
  Forall config_elem es /\ Forall (fun e => ce_extra e = 0 /\ ce_subs e <> 255) es /\
  CalculateControlShmResourceStorageSize some_cconsts es = Ok 1489 /\
  SimulatedControlSize true some_cconsts es = Ok 1489 /\ SimulatedControlSize false some_cconsts es = Ok 1482 /\ real_region 65536 32 1489.
Proof.
  cbn zeta. split; [repeat constructor; cbn; lia|]. split; [repeat constructor; cbn; lia|].
  do 3 (split; [vm_compute; reflexivity|]).
  unfold real_region, multiple, PAGE_SIZE, H63, W64. repeat split; try lia; [exists 16; lia|exists 2; lia].
Qed.

(** ** Methods *)
Lemma queues_ok (P : sinfo -> Prop) ms : (forall x n, P x -> P (mkSI (wrap (si_size x * n)) (si_align x))) ->
  Forall (method_types P) ms -> Forall P (flat_map queues ms).
Proof.
  intros W F. apply Forall_forall. intros x I. apply in_flat_map in I as (m & Im & I).
  rewrite Forall_forall in F. destruct (F m Im) as [F1 F2]. unfold queues in I. apply in_app_or in I as [I|I].
  - destruct (mi_in m) as [y|]; [|contradiction]. destruct I as [<-|[]]. apply W, F1. reflexivity.
  - destruct (mi_ret m) as [y|]; [|contradiction]. destruct I as [<-|[]]. apply W, F2. reflexivity.
Qed.

Lemma wrap_size z : is_size (wrap z).
Proof. unfold is_size, wrap. apply Z.mod_pos_bound. reflexivity. Qed.

(** the elements one by one end where an array of them ends *)
Lemma endof_elems x {A} (ms : list A) : valid_info x -> of_type x -> ms <> [] -> forall s,
  endof s (map (fun _ => x) ms) = align_up s (si_align x) + Z.of_nat (length ms) * si_size x.
Proof.
  intros [SX PX] T NE s. pose proof (pow2_pos _ PX) as PA. destruct T as (c & T).
  assert (G : forall (l : list A) s, s mod si_align x = 0 ->
                endof s (map (fun _ => x) l) = s + Z.of_nat (length l) * si_size x).
  { clear s NE. induction l as [|a l IH]; intros s S; cbn [map endof length]; [lia|].
    rewrite (align_up_id s) by auto. rewrite IH; [lia|]. rewrite T, Z.add_mod, Z.mod_mul, S by lia. reflexivity. }
  destruct ms as [|m ms]; [congruence|]. cbn [map endof]. rewrite G.
  - cbn [length]. lia.
  - destruct (align_up_spec s (si_align x) PA) as [M _]. rewrite Z.add_mod, M, T, Z.mod_mul by lia. reflexivity.
Qed.

(** calculated sequence and real allocations end at the same address *)
Lemma endof_methods k ms s V : valid_info (km_data k) -> valid_info (km_elem k) -> of_type (km_elem k) -> ms <> [] ->
  0 <= s -> Forall valid_info (flat_map queues ms) ->
  endof s (km_data k :: map (fun _ => km_elem k) ms ++ flat_map queues ms) <= V -> V < W64 ->
  endof s (method_allocations k ms) = endof s (km_data k :: map (fun _ => km_elem k) ms ++ flat_map queues ms).
Proof.
  intros VD VE T NE S0 VQ E BV. unfold method_allocations. cbn [endof] in *. rewrite endof_app in *.
  rewrite endof_elems in * by auto. cbn [arr si_size si_align].
  pose proof (endof_ge _ (align_up (align_up s (si_align (km_data k)) + si_size (km_data k)) (si_align (km_elem k)) +
    Z.of_nat (length ms) * si_size (km_elem k)) VQ) as G.
  destruct VD as [SD PD]. destruct VE as [SE PE]. unfold is_size in *.
  destruct (align_up_spec s (si_align (km_data k)) (pow2_pos _ PD)) as [_ B1].
  destruct (align_up_spec (align_up s (si_align (km_data k)) + si_size (km_data k)) (si_align (km_elem k)) (pow2_pos _ PE)) as [_ B2].
  unfold wrap. rewrite Z.mod_small; [reflexivity|]. split; [nia|lia].
Qed.

Lemma setup_ok base M V k ms extra t :
  CalculateRequiredShmSize k ms = Ok t -> 0 <= t -> 0 <= extra -> V = t + extra + M -> V < H63 -> 0 <= M ->
  setup_methods base M k ms extra = allocate_all base V M (method_allocations k ms).
Proof.
  intros E T X -> VH MM. unfold setup_methods. rewrite E. cbn [bind].
  assert (H63 < W64) by reflexivity.
  unfold wrap. rewrite Z.mod_small by lia. unfold add_sz.
  destruct (Z.ltb_spec (t + extra + M) W64); [reflexivity|lia].
Qed.

Lemma align_up_16 s A : pow2 A -> multiple s 16 -> 16 <= A -> align_up s A <= s + A - 16.
Proof.
  intros (k & K & ->) (c & ->) L.
  assert (4 <= k). { destruct (Z.le_gt_cases 4 k); auto. assert (2 ^ k < 2 ^ 4) by (apply Z.pow_lt_mono_r; lia). change (2 ^ 4) with 16 in *. lia. }
  assert (D : 2 ^ k = 16 * 2 ^ (k - 4)). { change 16 with (2 ^ 4). rewrite <- Z.pow_add_r by lia. f_equal. lia. }
  set (b := 2 ^ (k - 4)) in *. rewrite D in *. assert (B : 0 < b) by (apply Z.pow_pos_nonneg; lia).
  destruct (align_up_spec (c * 16) (16 * b) ltac:(lia)) as [M U].
  pose proof (Z.div_mod (align_up (c * 16) (16 * b)) (16 * b) ltac:(lia)) as DM. rewrite M in DM.
  set (q := align_up (c * 16) (16 * b) / (16 * b)) in *.
  assert (align_up (c * 16) (16 * b) = 16 * (b * q)) by lia. nia.
Qed.

Lemma seq_size_nonneg l : forall s t, is_size s -> Forall valid_info l -> seq_loop s l = Ok t -> 0 <= t.
Proof.
  induction l as [|z l IHl]; intros s r T F E; cbn [seq_loop] in E; [injection E as <-; unfold is_size in T; lia|].
  inversion F as [|? ? [SZ PZ] F']; subst. destruct (si_align z =? 0); [discriminate|].
  destruct (Z.leb_spec s (W64 - 1 - si_size z)); cbn [negb] in E; [|discriminate]. unfold is_size in *.
  destruct l as [|w l]; [injection E as <-; lia|]. destruct (si_align w =? 0); [discriminate|].
  destruct (CalculateAlignedSize (s + si_size z) (si_align w)) as [t1| |] eqn:CA; try discriminate. cbn [bind] in E.
  inversion F' as [|? ? [SW PW] F'']; subst. pose proof (pow2_lt _ PW). pose proof (pow2_pos _ PW).
  apply cas_ok in CA as (_ & -> & R); [|unfold is_size; lia|unfold is_size; lia].
  apply IHl in E; auto.
Qed.

(** Creating a proxy: if argument and result types have at most the alignment of std::max_align_t, the
    calculated size is exactly what is used; everything is placed apart, aligned and in the region,
    whatever additional size is asked for. *)
Theorem C106_methods_partial : forall base M k ms t extra,
  plain_mconsts k -> ms <> [] -> Forall (method_types plain_info) ms -> 0 <= extra ->
  CalculateRequiredShmSize k ms = Ok t -> real_region base M (t + extra) ->
  exists addrs, setup_methods base M k ms extra = Ok (addrs, M + t) /\
    placed (base + M) (base + M + t) (method_allocations k ms) addrs.
Proof.
  intros base M k ms t extra (KD & KE & KT) NE F X E R. pose proof R as (B & _ & MM & _ & S0 & VH & BV).
  assert (QP : Forall plain_info (flat_map queues ms)).
  { apply queues_ok; auto. intros x n [_ P]. split; [apply wrap_size|exact P]. }
  assert (EK : Forall plain_info (km_data k :: map (fun _ => km_elem k) ms ++ flat_map queues ms)).
  { constructor; [exact KD|]. apply Forall_app. split; [|exact QP].
    apply Forall_forall. intros x I. apply in_map_iff in I as (? & <- & _). exact KE. }
  assert (RK : Forall plain_info (method_allocations k ms)).
  { constructor; [exact KD|]. constructor; [apply plain_arr; exact KE|exact QP]. }
  assert (EV : Forall valid_info (km_data k :: map (fun _ => km_elem k) ms ++ flat_map queues ms)) by (eapply Forall_impl; [|exact EK]; apply plain_valid).
  assert (QV : Forall valid_info (flat_map queues ms)) by (eapply Forall_impl; [|exact QP]; apply plain_valid).
  assert (RV : Forall valid_info (method_allocations k ms)) by (eapply Forall_impl; [|exact RK]; apply plain_valid).
  assert (T0 : 0 <= t) by (eapply seq_size_nonneg; [|exact EV|exact E]; unfold is_size, W64; lia).
  rewrite (setup_ok base M (t + extra + M) k ms extra t) by (auto; lia).
  assert (EE : endof (base + M) (km_data k :: map (fun _ => km_elem k) ms ++ flat_map queues ms) = base + M + t).
  { apply (size_endof base (t + extra + M) M); auto; try lia; [discriminate|].
    eapply Forall_impl; [|exact EK]. intros x. eapply plain_multiple; eauto. }
  assert (RE : endof (base + M) (method_allocations k ms) = base + M + t).
  { rewrite (endof_methods k ms (base + M) (base + M + t)); auto; try lia; apply plain_valid; assumption. }
  destruct (alloc_end base (t + extra + M) B ltac:(lia) ltac:(lia) (method_allocations k ms) M ltac:(lia) RV ltac:(lia)) as (addrs & A & P).
  rewrite RE in *. exists addrs. split; [rewrite A; do 2 f_equal; lia|exact P].
Qed.

(** With types of any alignment up to [A]: the proxy can be created if it asks for at least A - 16
    additional bytes. *)
Theorem C106_methods_additional : forall base M k ms t A extra,
  plain_mconsts k -> ms <> [] -> pow2 A -> 16 <= A <= PAGE_SIZE ->
  Forall (method_types (fun x => is_size (si_size x) /\ pow2 (si_align x) /\ multiple A (si_align x))) ms ->
  A - 16 <= extra ->
  CalculateRequiredShmSize k ms = Ok t -> real_region base M (t + extra) ->
  exists addrs used, setup_methods base M k ms extra = Ok (addrs, used) /\ used <= M + t + extra /\
    placed (base + M) (base + M + t + extra) (method_allocations k ms) addrs.
Proof.
  intros base M k ms t A extra (KD & KE & KT) NE PA LA F X E R. pose proof R as (B & (pb & PB) & MM & (pm & PM) & S0 & VH & BV).
  set (Q := fun x => is_size (si_size x) /\ pow2 (si_align x) /\ multiple A (si_align x)) in *.
  assert (M16 : multiple A 16).
  { destruct PA as (n & N & ->). exists (2 ^ (n - 4)).
    assert (4 <= n). { destruct (Z.le_gt_cases 4 n); auto. assert (2 ^ n < 2 ^ 4) by (apply Z.pow_lt_mono_r; lia). change (2 ^ 4) with 16 in *. lia. }
    change 16 with (2 ^ 4). rewrite <- Z.pow_add_r by lia. f_equal. lia. }
  assert (PQ : forall x, plain_info x -> Q x).
  { intros x [SX [P (c & C)]]. split; [exact SX|]. split; [exact P|]. destruct M16 as (d & D). exists (d * c). rewrite D, C. ring. }
  assert (QP : Forall Q (flat_map queues ms)).
  { apply queues_ok; auto. intros x n (_ & P1 & P2). split; [apply wrap_size|]. split; assumption. }
  assert (EK : Forall Q (km_data k :: map (fun _ => km_elem k) ms ++ flat_map queues ms)).
  { constructor; [apply PQ, KD|]. apply Forall_app. split; [|exact QP].
    apply Forall_forall. intros x I. apply in_map_iff in I as (? & <- & _). apply PQ, KE. }
  assert (RK : Forall Q (method_allocations k ms)).
  { constructor; [apply PQ, KD|]. constructor; [apply PQ, plain_arr, KE|exact QP]. }
  assert (QVI : forall x, Q x -> valid_info x) by (intros x (q1 & q2 & _); split; assumption).
  assert (EV : Forall valid_info (km_data k :: map (fun _ => km_elem k) ms ++ flat_map queues ms)) by (eapply Forall_impl; [|exact EK]; exact QVI).
  assert (QV : Forall valid_info (flat_map queues ms)) by (eapply Forall_impl; [|exact QP]; exact QVI).
  assert (RV : Forall valid_info (method_allocations k ms)) by (eapply Forall_impl; [|exact RK]; exact QVI).
  assert (T0 : 0 <= t) by (eapply seq_size_nonneg; [|exact EV|exact E]; unfold is_size, W64; lia).
  rewrite (setup_ok base M (t + extra + M) k ms extra t) by (auto; lia).
  pose proof (pow2_pos _ PA) as A0.
  destruct (align_up_spec (base + M) A A0) as [AM AB].
  assert (AL : align_up (base + M) A <= base + M + A - 16).
  { apply align_up_16; auto; [|lia]. exists (256 * pb + pm). rewrite PB, PM. unfold PAGE_SIZE. lia. }
  set (s := align_up (base + M) A) in *.
  assert (EE : endof s (km_data k :: map (fun _ => km_elem k) ms ++ flat_map queues ms) = s + t).
  { replace s with (base + (s - base)) by lia. apply (size_endof base (t + extra + M) (s - base)); auto; try lia; [discriminate|].
    eapply Forall_impl; [|exact EK]. intros x (_ & _ & (c & C)). replace (base + (s - base)) with s by lia.
    exists (s / A * c). pose proof (Z.div_mod s A ltac:(lia)) as DM. rewrite AM in DM. rewrite <- Z.mul_assoc, <- C. lia. }
  assert (RE : endof s (method_allocations k ms) = s + t).
  { rewrite (endof_methods k ms s (s + t)); auto; try lia; apply plain_valid; assumption. }
  pose proof (endof_within _ _ (within_refl (method_allocations k ms)) (base + M) s RV ltac:(lia)) as LE.
  destruct (alloc_end base (t + extra + M) B ltac:(lia) ltac:(lia) (method_allocations k ms) M ltac:(lia) RV ltac:(lia)) as (addrs & AA & P).
  exists addrs, (endof (base + M) (method_allocations k ms) - base). split; [exact AA|]. split; [lia|].
  eapply placed_widen; [|exact P]. lia.
Qed.

Definition some_mconsts : mconsts := mkMC (mkSI 48 8) (mkSI 136 8).

Lemma some_mconsts_plain : plain_mconsts some_mconsts.
Proof.
  assert (F8 : fits16 8) by (split; [exists 3; split; [lia|reflexivity]|exists 2; reflexivity]).
  repeat split; cbn; try (unfold W64; lia); try apply F8. exists 17. reflexivity.
Qed.

(** An argument type of larger alignment: the calculation assumes a start that meets it, the memory
    starts behind the management data.  Creating the proxy ends the process. *)
Theorem C106_methods_overaligned_refuted : exists base M ms t,
  plain_mconsts some_mconsts /\ Forall (method_types valid_info) ms /\
  CalculateRequiredShmSize some_mconsts ms = Ok t /\ real_region base M t /\
  setup_methods base M some_mconsts ms 0 = Term.
Proof.
  exists 65536, 32, [mkMI (Some (mkSI 64 64)) None 1], 256.
  split; [exact some_mconsts_plain|].
  split; [constructor; [split; cbn; intros x H; inversion H; subst; split; cbn; [unfold is_size, W64; lia|exists 6; split; [lia|reflexivity]]|constructor]|].
  split; [vm_compute; reflexivity|]. split; [|vm_compute; reflexivity].
  unfold real_region, multiple, PAGE_SIZE, H63, W64. repeat split; try lia; [exists 16; lia|exists 2; lia].
Qed.

Example C106_methods_example :
  let ms := [mkMI (Some (mkSI 12 4)) (Some (mkSI 16 8)) 1; mkMI None None 1; mkMI None (Some (mkSI 3 1)) 2] in
  Forall (method_types plain_info) ms /\
  CalculateRequiredShmSize some_mconsts ms = Ok 494 /\ real_region 65536 32 (494 + 100) /\
  setup_methods 65536 32 some_mconsts ms 100 = Ok ([65568; 65616; 66024; 66040; 66056], 526) /\
  setup_methods 65536 32 some_mconsts [mkMI (Some (mkSI 64 64)) None 1] 48 = Ok ([65568; 65616; 65792], 320).
Proof.
  cbn zeta.
  assert (F8 : fits16 8) by (split; [exists 3; split; [lia|reflexivity]|exists 2; reflexivity]).
  assert (F4 : fits16 4) by (split; [exists 2; split; [lia|reflexivity]|exists 4; reflexivity]).
  assert (F1 : fits16 1) by (split; [exists 0; split; [lia|reflexivity]|exists 16; reflexivity]).
  split.
  { repeat constructor; cbn; intros; try match goal with H : _ = Some _ |- _ => inversion H; subst end; cbn; unfold W64; try lia;
      try apply F8; try apply F4; try apply F1. }
  split; [vm_compute; reflexivity|].
  split; [unfold real_region, multiple, PAGE_SIZE, H63, W64; repeat split; try lia; [exists 16; lia|exists 2; lia]|].
  split; vm_compute; reflexivity.
Qed.

Print Assumptions C106_control_analysis_partial.
Print Assumptions C106_control_simulation_partial.
Print Assumptions C106_control_analysis_getter_refuted.
Print Assumptions C106_subscribers_255_refuted.
Print Assumptions C106_methods_partial.
Print Assumptions C106_methods_additional.
Print Assumptions C106_methods_overaligned_refuted.
