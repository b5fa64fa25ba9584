(** C104: arguments and result of a method call arrive unchanged. *)
From Verif Require Import Base DeplModel ArgModel ArgSpec ArgProofs.
Open Scope N_scope.

(** Storage for a list of argument types: one storage element at an address aligned for the element
    holds every argument at its own aligned place, in order, without overlap and inside the element,
    with no more padding than needed; and the size of an element is a multiple of its alignment, so
    that every element of a queue is aligned if the first one is. *)
Theorem C104_layout : forall ts data, ts <> [] -> Forall wf ts ->
  (i_align (size_info ts) | data) ->
  let ps := deserialize ts data in
  let n := i_size (size_info ts) in
  let a := i_align (size_info ts) in
  length ps = length ts /\
  (forall i t p, nth_error ts i = Some t -> nth_error ps i = Some p ->
     (al t | p) /\ data <= p /\ p + sz t <= data + n) /\
  (forall i j t p q, (i < j)%nat -> nth_error ts i = Some t -> nth_error ps i = Some p ->
     nth_error ps j = Some q -> p + sz t <= q) /\
  (forall p, nth_error ps 0 = Some p -> p = data) /\
  (forall i t p u q, nth_error ts i = Some t -> nth_error ps i = Some p ->
     nth_error ts (S i) = Some u -> nth_error ps (S i) = Some q -> q < p + sz t + al u) /\
  (forall t p, nth_error ts (pred (length ts)) = Some t -> nth_error ps (pred (length ts)) = Some p ->
     data + n < p + sz t + a) /\
  (a | n) /\ (forall t, In t ts -> (al t | a)) /\ (exists t, In t ts /\ al t = a).
Proof.
  intros ts data NE W D. cbn zeta.
  destruct (size_info_spec ts NE W) as [e [L [E1 [E2 [E3 [E4 E5]]]]]].
  assert (H : forall t, In t ts -> 0 < al t /\ (al t | data)).
  { intros t I. split.
    - rewrite Forall_forall in W. apply pow2_pos, (W t I).
    - eapply N.divide_trans; [apply E4, I|exact D]. }
  assert (EQ : deserialize ts data = map (fun q => data + q) (deser 0 0 ts)) by (apply deser_shift; exact H).
  assert (L' : laid (data + 0) ts (deserialize ts data) (data + e)).
  { rewrite EQ. apply laid_shift; [intros t I; apply H, I|exact L]. }
  rewrite N.add_0_r in L'.
  split; [apply deser_length|].
  split. { intros i t p A B. destruct (laid_nth _ _ _ _ L' i t p A B) as [X [Y Z]]. repeat split; [exact Z|lia|lia]. }
  split. { intros i j t p q LT A B C. exact (laid_order _ _ _ _ L' i j t p q LT A B C). }
  split. { intros p P. destruct ts as [|t ts]; [congruence|].
    unfold deserialize in P. cbn [deser] in P. unfold deser_arg in P. injection P as <-.
    rewrite N.add_0_r. rewrite padding_0; [lia| |]; apply (H t (or_introl eq_refl)). }
  split. { intros i t p u q A B C F. exact (laid_tight _ _ _ _ L' i t p u q A B C F). }
  split. { intros t p A B. pose proof (laid_end _ _ _ _ L' t p NE A B). lia. }
  split; [exact E3|]. split; [exact E4|exact E5].
Qed.

(** Example: uint8_t, bool, uint64_t, uint16_t at address 4096 *)
Example ex_layout :
  size_info [mkTy 1 1; mkTy 1 1; mkTy 8 8; mkTy 2 2] = mkInfo 24 8 /\
  deserialize [mkTy 1 1; mkTy 1 1; mkTy 8 8; mkTy 2 2] 4096 = [4096; 4097; 4104; 4112].
Proof. split; vm_compute; reflexivity. Qed.

Lemma size_info_one r : wf r -> size_info [r] = mkInfo (sz r) (al r).
Proof.
  intros [P [_ D]]. unfold size_info. cbn [fold_left aggregate].
  apply pow2_pos in P as P0.
  rewrite N.max_r by lia. rewrite padding_0; [|exact P0|exists 0; lia].
  replace (0 + (sz r + 0)) with (sz r) by lia.
  destruct (N.eqb_spec (al r) 0); [lia|]. cbn [negb andb].
  apply N.mod_divide in D; [|lia]. rewrite D. reflexivity.
Qed.

Lemma get_element_done pos i data q : pos < q -> get_element pos i data (queue_len i q) q = Done (data + i_size i * pos, i_size i).
Proof.
  intros H. unfold get_element, queue_len. apply N.ltb_lt in H. rewrite H, N.eqb_refl. reflexivity.
Qed.

Lemma page_divide a : pow2 a -> a <= page -> (a | page).
Proof. intros P L. apply pow2_divide; [exact P|exists 12; reflexivity|exact L]. Qed.

(** A queue aligned in one process is aligned in every process, as long as alignments are at most a page *)
Lemma placed_both me cbase pbase : Forall wf (types me) -> Forall (fun t => al t <= page) (types me) ->
  (page | cbase) -> (page | pbase) -> placed me cbase -> placed me pbase.
Proof.
  intros W F C P [A B]. rewrite Forall_forall in W, F.
  assert (Q : forall t x, In t (types me) -> (al t | cbase + x) -> (al t | pbase + x)).
  { intros t x I D. assert (DP : (al t | page)) by (apply page_divide; [apply (W t I)|apply (F t I)]).
    apply N.divide_add_r; [eapply N.divide_trans; eassumption|].
    apply N.divide_add_cancel_r with (m := cbase); [eapply N.divide_trans; eassumption|exact D]. }
  split.
  - intros t I. apply Q; [apply in_or_app; left; exact I|apply A, I].
  - intros r R. apply Q; [apply in_or_app; right; rewrite R; left; reflexivity|apply B, R].
Qed.

Lemma in_elt_le a q pos : pos < q -> a * (pos + 1) <= a * q.
Proof. intros H. apply N.mul_le_mono_l. lia. Qed.

(** The call, for every signature of types aligned to at most a page, every queue size and position,
    every argument values, handler and contents of the shared memory, wherever the two processes map
    it: the handler is given exactly the argument values of the call, in order; the pointer the caller
    gets designates exactly the value the handler produced for them; and not a byte outside the
    element of this call changes, so calls at other positions and other methods are not disturbed. *)
Theorem C104_call : forall me cbase pbase pos vals h m,
  Forall wf (types me) -> Forall (fun t => al t <= page) (types me) ->
  (page | cbase) -> (page | pbase) -> placed me cbase -> apart me -> pos < qsize me ->
  sized (args me) vals ->
  (forall r, ret me = Some r -> N.of_nat (length (h vals)) = sz r) ->
  exists m', call me cbase pbase pos vals h m
             = Done (vals, option_map (fun _ => h vals) (ret me), m') /\
             forall o, ~ in_elements me pos o -> m' o = m o.
Proof.
  intros me cbase pbase pos vals h m W F CP PP PC AP LT SZ HR.
  pose proof (placed_both me cbase pbase W F CP PP PC) as PP'.
  assert (WA : Forall wf (args me)) by (apply Forall_app in W; apply W).
  assert (WR : forall r, ret me = Some r -> wf r).
  { intros r R. apply Forall_app in W. destruct W as [_ W]. rewrite R in W. now inversion W. }
  set (x := in_off me + in_size me * pos).
  (* the arguments *)
  assert (IN : exists m1,
    match args me with
    | [] => Done m
    | ts =>
      match get_element pos (size_info ts) (cbase + in_off me) (queue_len (size_info ts) (qsize me)) (qsize me) with
      | Done (e, _) => Done (store m cbase (deserialize ts e) vals)
      | Terminates => Terminates
      | Undefined => Undefined
      end
    end = Done m1 /\
    match args me with
    | [] => Done []
    | ts =>
      match get_element pos (size_info ts) (pbase + in_off me) (queue_len (size_info ts) (qsize me)) (qsize me) with
      | Done (e, _) => Done (load m1 pbase ts (deserialize ts e))
      | Terminates => Terminates
      | Undefined => Undefined
      end
    end = Done vals /\
    (forall o, ~ (x <= o /\ o < in_off me + in_size me * (pos + 1)) -> m1 o = m o)).
  { unfold in_size in x. destruct (args me) as [|t0 ts0] eqn:EA.
    - inversion SZ; subst. exists m. repeat split; reflexivity.
    - cbv beta iota zeta. set (ts := t0 :: ts0) in *.
      assert (NE : ts <> []) by discriminate.
      destruct (size_info_spec ts NE WA) as [e [L [E1 [E2 [E3 [E4 _]]]]]].
      rewrite !get_element_done by exact LT. cbn [fst].
      destruct PC as [PC _]. destruct PP' as [PP' _]. rewrite EA in PC, PP'. fold ts in PC, PP'.
      rewrite Forall_forall in WA.
      assert (AL : forall b, (forall t, In t ts -> (al t | b + in_off me)) ->
        forall t, In t ts -> 0 < al t /\ (al t | b + x)).
      { intros b HB t I. split; [apply pow2_pos, (WA t I)|].
        unfold x. rewrite N.add_assoc. apply N.divide_add_r; [apply HB, I|].
        apply N.divide_mul_l. eapply N.divide_trans; [apply E4, I|exact E3]. }
      pose proof (AL cbase PC) as ALC. pose proof (AL pbase PP') as ALP.
      assert (XC : cbase + in_off me + i_size (size_info ts) * pos = cbase + x) by (unfold x; lia).
      assert (XP : pbase + in_off me + i_size (size_info ts) * pos = pbase + x) by (unfold x; lia).
      rewrite XC, XP.
      assert (LC : laid (cbase + x) ts (deserialize ts (cbase + x)) (cbase + x + e)).
      { unfold deserialize. rewrite deser_shift by exact ALC.
        rewrite <- (N.add_0_r (cbase + x)) at 1. apply laid_shift; [intros t I; apply ALC, I|exact L]. }
      eexists. split; [reflexivity|]. split.
      + destruct (element_ptrs pbase x ts ALP) as [FP MP]. destruct (element_ptrs cbase x ts ALC) as [FC MC].
        rewrite load_base by exact FP. rewrite MP, <- MC. rewrite <- load_base by exact FC.
        f_equal. eapply load_store; [exact LC|exact SZ|lia].
      + intros o O. eapply store_frame; [exact LC|exact SZ|lia|].
        unfold in_size in O. rewrite EA in O. fold ts in O.
        assert (i_size (size_info ts) * (pos + 1) = i_size (size_info ts) * pos + i_size (size_info ts)) by lia.
        unfold x in *. lia. }
  destruct IN as [m1 [S1 [V1 F1]]].
  cbv zeta in S1, V1. unfold call. cbv zeta. rewrite S1. unfold serve. cbv zeta. rewrite V1.
  destruct (ret me) as [r|] eqn:ER; cbn [option_map].
  - pose proof (WR r eq_refl) as WFR. specialize (HR r eq_refl).
    rewrite (size_info_one r WFR). rewrite !get_element_done by exact LT. cbn [i_size].
    destruct PC as [_ PC]. destruct PP' as [_ PP']. specialize (PC r ER). specialize (PP' r ER).
    set (y := ret_off me + sz r * pos).
    assert (YP : pbase + ret_off me + sz r * pos = pbase + y) by (unfold y; lia).
    assert (YC : cbase + ret_off me + sz r * pos = cbase + y) by (unfold y; lia).
    rewrite YP, YC.
    assert (A0 : 0 < al r) by (apply pow2_pos, WFR).
    assert (DY : (al r | pbase + y)).
    { rewrite <- YP. apply N.divide_add_r; [exact PP'|]. apply N.divide_mul_l. apply WFR. }
    unfold deserialize. cbn [deser]. unfold deser_arg. rewrite N.add_0_r.
    rewrite (padding_0 (pbase + y) (al r) A0 DY). cbn [store].
    replace (pbase + y + 0 - pbase) with y by lia. replace (cbase + y - cbase) with y by lia.
    eexists. split.
    + rewrite <- HR. rewrite read_write_same. reflexivity.
    + intros o O. rewrite write_other.
      * apply F1. intros I. apply O. left. unfold x in I. exact I.
      * rewrite HR. unfold in_elements, ret_size in O. rewrite ER in O.
        assert (sz r * (pos + 1) = sz r * pos + sz r) by lia. unfold y. lia.
  - eexists. split; [reflexivity|]. intros o O. apply F1. intros I. apply O. left. exact I.
Qed.

(** Elements of different positions, and of the two queues, do not share a byte *)
Theorem C104_elements_apart : forall me p q o, apart me -> p < qsize me -> q < qsize me -> p <> q ->
  in_elements me p o -> ~ in_elements me q o.
Proof.
  intros me p q o AP P Q NE. unfold in_elements, apart in *.
  assert (M : forall s, p < q -> s * (p + 1) <= s * q) by (intros s H; apply N.mul_le_mono_l; lia).
  assert (M' : forall s, q < p -> s * (q + 1) <= s * p) by (intros s H; apply N.mul_le_mono_l; lia).
  pose proof (M (in_size me)). pose proof (M (ret_size me)). pose proof (M' (in_size me)). pose proof (M' (ret_size me)).
  pose proof (in_elt_le (in_size me) _ _ P). pose proof (in_elt_le (in_size me) _ _ Q).
  pose proof (in_elt_le (ret_size me) _ _ P). pose proof (in_elt_le (ret_size me) _ _ Q).
  assert (in_size me * p <= in_size me * (p + 1)) by lia. assert (in_size me * q <= in_size me * (q + 1)) by lia.
  assert (ret_size me * p <= ret_size me * (p + 1)) by lia. assert (ret_size me * q <= ret_size me * (q + 1)) by lia.
  generalize dependent (in_size me * p). generalize dependent (in_size me * q).
  generalize dependent (in_size me * (p + 1)). generalize dependent (in_size me * (q + 1)).
  generalize dependent (ret_size me * p). generalize dependent (ret_size me * q).
  generalize dependent (ret_size me * (p + 1)). generalize dependent (ret_size me * (q + 1)).
  intros. destruct (N.lt_total p q) as [L|[L|L]]; [|congruence|]; lia.
Qed.

(** Example: f(uint8_t, uint64_t) -> uint16_t, mapped at different addresses *)
Definition ex_me : method := mkMethod [mkTy 1 1; mkTy 8 8] (Some (mkTy 2 2)) 2 64 96.
Example ex_call :
  Forall wf (types ex_me) /\ placed ex_me 40960 /\ apart ex_me /\
  match call ex_me 40960 8192 1 [[7]; [1; 2; 3; 4; 5; 6; 7; 8]] (fun v => [N.of_nat (length v); 9]) (fun _ => 0) with
  | Done (given, r, m) => given = [[7]; [1; 2; 3; 4; 5; 6; 7; 8]] /\ r = Some [2; 9] /\ m 80 = 7 /\ m 88 = 1 /\ m 98 = 2 /\ m 64 = 0
  | _ => False
  end.
Proof.
  repeat split; try (vm_compute; reflexivity).
  - repeat constructor; cbn; try lia; try (exists 0; reflexivity); try (exists 1; reflexivity); try (exists 3; reflexivity); try (exists 8; reflexivity).
  - intros t [<-|[<-|[]]]; [exists 41024; reflexivity|exists 5128; reflexivity].
  - intros r E. injection E as <-. exists 20528. reflexivity.
  - left. vm_compute. discriminate.
Qed.

Lemma read_0 m o n : 0 < n -> nth 0 (read m o n) 0 = m o.
Proof.
  intros H. unfold read. destruct (N.to_nat n) as [|k] eqn:E; [lia|]. cbn [seq map nth]. f_equal. lia.
Qed.

Lemma over_value n : exists v : bytes, N.of_nat (length v) = N.succ n /\ nth 0 v 0 = 7.
Proof.
  exists (7 :: repeat 0 (N.to_nat n)). cbn [length]. rewrite repeat_length. split; [lia|reflexivity].
Qed.

Definition ex_over : method := mkMethod [mkTy 1 1; mkTy 8192 8192] None 1 0 0.

(** Types aligned to more than a page. The code puts an argument at an address aligned in the address
    space of the process at hand; mmap only promises a multiple of the page size. With a type
    aligned to 8192 (alignas is accepted, nothing checks it) and the two processes mapping the region
    at addresses that differ by a page, the two sides compute different places: the handler is given
    other bytes than the caller passed. *)
Theorem C104_over_page_alignment_refuted :
  exists me cbase pbase vals,
    Forall wf (types me) /\ (page | cbase) /\ (page | pbase) /\ placed me cbase /\ apart me /\
    0 < qsize me /\ sized (args me) vals /\
    forall h m, (forall o, m o = 0) ->
      exists given r m', call me cbase pbase 0 vals h m = Done (given, r, m') /\ given <> vals.
Proof.
  destruct (over_value 8191) as [v [VL V0]].
  exists ex_over, 8192, 4096, [[5]; v].
  split. { repeat constructor; cbn; try lia; try (exists 0; reflexivity); try (exists 1; reflexivity); exists 13; reflexivity. }
  split; [exists 2; reflexivity|]. split; [exists 1; reflexivity|].
  split. { split; [intros t [<-|[<-|[]]]; cbn; [exists 8192; reflexivity|exists 1; reflexivity]|discriminate]. }
  split. { right. vm_compute. discriminate. }
  split; [reflexivity|].
  split. { constructor; [reflexivity|]. constructor; [exact VL|constructor]. }
  intros h m Z. unfold call. cbn [args ex_over]. cbv zeta.
  assert (SI : size_info [mkTy 1 1; mkTy 8192 8192] = mkInfo 16384 8192) by (vm_compute; reflexivity).
  rewrite SI. unfold serve. cbn [args ret qsize in_off ret_off ex_over]. cbv zeta. rewrite SI.
  rewrite !get_element_done by reflexivity.
  assert (D1 : deserialize [mkTy 1 1; mkTy 8192 8192] (8192 + 0 + i_size (mkInfo 16384 8192) * 0) = [8192; 16384]) by (vm_compute; reflexivity).
  assert (D2 : deserialize [mkTy 1 1; mkTy 8192 8192] (4096 + 0 + i_size (mkInfo 16384 8192) * 0) = [4096; 8192]) by (vm_compute; reflexivity).
  rewrite D1, D2. cbn [store load sz].
  do 3 eexists. split; [reflexivity|].
  intros E. apply (f_equal (fun l => nth 0 (nth 1 l []) 0)) in E. cbn [nth] in E. rewrite V0 in E.
  rewrite read_0 in E by reflexivity.
  rewrite write_other in E by (left; reflexivity). rewrite write_other in E by (right; vm_compute; discriminate).
  rewrite Z in E. discriminate.
Qed.

(** A buffer of the stated size that is not aligned: reading the arguments leaves the buffer (the
    size of the span is never looked at), while writing them ends the process. *)
Theorem C104_unaligned_buffer_refuted :
  exists ts data, Forall wf ts /\
    (exists i t p, nth_error ts i = Some t /\ nth_error (deserialize ts data) i = Some p /\
       data + i_size (size_info ts) < p + sz t) /\
    serialize data (i_size (size_info ts)) (map (fun t => (t, 0)) ts) = Terminates.
Proof.
  exists [mkTy 8 8], 65540. split; [|split].
  - repeat constructor; cbn; try lia; [exists 3; reflexivity|exists 1; reflexivity].
  - exists 0%nat, (mkTy 8 8), 65544. vm_compute. repeat split; reflexivity.
  - vm_compute. reflexivity.
Qed.

Lemma ser_ok l : forall data len o hi, (forall t c, In (t, c) l -> 0 < al t) ->
  (forall t c, In (t, c) l -> c + sz t < data \/ data + len < c) ->
  laid (data + o) (map fst l) (deser data o (map fst l)) (data + hi) -> hi <= len ->
  ser data len o l = Done (deser data o (map fst l)).
Proof.
  induction l as [|[t c] l IH]; intros data len o hi P C L H; [reflexivity|].
  cbn [map fst] in L. cbn [map fst ser deser]. unfold ser_arg, std_align, deser_arg.
  cbn [deser] in L. unfold deser_arg in L. inversion L as [|? ? ? ? ? ? G1 G2 G3 L']; subst.
  pose proof (laid_le _ _ _ _ L') as LE.
  destruct (N.ltb_spec (len - o) (padding (data + o) (al t) + sz t)); [lia|].
  assert (OV : overlapping data len c (sz t) = false).
  { unfold overlapping. destruct (C t c (or_introl eq_refl)) as [D|D].
    - apply N.ltb_lt in D. rewrite D. reflexivity.
    - apply N.ltb_lt in D. rewrite D. rewrite orb_true_r. reflexivity. }
  rewrite OV.
  replace (o + (sz t + (len - o - (len - o - padding (data + o) (al t))))) with (o + (padding (data + o) (al t) + sz t)) by lia.
  rewrite (IH data len (o + (padding (data + o) (al t) + sz t)) hi).
  - reflexivity.
  - intros u d I. apply (P u d). right. exact I.
  - intros u d I. apply (C u d). right. exact I.
  - replace (data + (o + (padding (data + o) (al t) + sz t))) with (data + o + padding (data + o) (al t) + sz t) by lia. exact L'.
  - exact H.
Qed.

(** Writing arguments into an aligned buffer of the stated size (or a larger one) puts each one where
    reading them looks for it, provided the copies made by the overlap check lie off the buffer. *)
Theorem C104_serialize_partial : forall ts data len copies, ts <> [] -> Forall wf ts ->
  (i_align (size_info ts) | data) -> i_size (size_info ts) <= len ->
  length copies = length ts ->
  (forall t c, In (t, c) (combine ts copies) -> c + sz t < data \/ data + len < c) ->
  serialize data len (combine ts copies) = Done (deserialize ts data).
Proof.
  intros ts data len copies NE W D LE LN C.
  destruct (size_info_spec ts NE W) as [e [L [E1 [E2 [E3 [E4 E5]]]]]].
  assert (M : forall (a : list ty) (b : list N), length b = length a -> map fst (combine a b) = a).
  { induction a as [|x a IH]; intros [|y b] E; try discriminate; [reflexivity|]. cbn. f_equal. apply IH. now injection E. }
  pose proof (M ts copies LN) as MT.
  assert (H : forall t, In t ts -> 0 < al t /\ (al t | data)).
  { intros t I. split.
    - rewrite Forall_forall in W. apply pow2_pos, (W t I).
    - eapply N.divide_trans; [apply E4, I|exact D]. }
  unfold serialize, deserialize. rewrite (ser_ok _ data len 0 e).
  - now rewrite MT.
  - intros t c I. apply in_combine_l in I. apply H, I.
  - exact C.
  - rewrite MT. rewrite deser_shift by exact H. apply laid_shift; [intros t I; apply H, I|exact L].
  - lia.
Qed.

Example ex_serialize :
  serialize 4096 16 (combine [mkTy 1 1; mkTy 8 8] [100; 200]) = Done [4096; 4104].
Proof. vm_compute. reflexivity. Qed.

(** The check that an argument does not lie in the buffer looks at a copy of the argument (it takes
    the argument by value): wherever the argument itself lies, even in the buffer it is copied into,
    the result is the same. And an argument whose copy ends exactly where the buffer starts, which
    shares no byte with it, ends the process. *)
Theorem C104_overlap_check_refuted :
  (forall data len t copy (argument : N), al t = 1 -> sz t <= len -> copy + sz t < data ->
     (* the argument may be inside the buffer: data <= argument < data + len *)
     serialize data len [(t, copy)] = Done [data]) /\
  (exists data len t copy, copy + sz t <= data /\ wf t /\ (i_align (size_info [t]) | data) /\
     i_size (size_info [t]) = len /\ serialize data len [(t, copy)] = Terminates).
Proof.
  split.
  - intros data len t copy argument A S C. unfold serialize. cbn [ser]. unfold ser_arg, std_align.
    rewrite A. unfold padding. rewrite N.mod_1_r. cbn [N.eqb].
    destruct (N.ltb_spec (len - 0) (0 + sz t)); [lia|].
    unfold overlapping. apply N.ltb_lt in C. rewrite C. cbn [negb orb].
    do 2 f_equal. lia.
  - exists 4096, 8, (mkTy 8 8), 4088. split; [vm_compute; discriminate|].
    split. { repeat constructor; cbn; try lia; [exists 3; reflexivity|exists 1; reflexivity]. }
    split; [exists 512; reflexivity|]. split; vm_compute; reflexivity.
Qed.

Print Assumptions C104_layout.
Print Assumptions C104_call.
Print Assumptions C104_elements_apart.
Print Assumptions C104_over_page_alignment_refuted.
Print Assumptions C104_unaligned_buffer_refuted.
Print Assumptions C104_serialize_partial.
Print Assumptions C104_overlap_check_refuted.
