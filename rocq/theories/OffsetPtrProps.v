(** C30-C35: OffsetPtr. *)
From Verif Require Import OffsetPtrModel RegionProps.
Local Open Scope Z_scope.

(** * Specification vocabulary *)
Definition is_addr (a : Z) : Prop := 0 <= a < W64.
Definition is_off (o : Z) : Prop := - H63 <= o < H63.
(** the object of [sz] bytes at [q] lies completely inside the region *)
Definition object_inside (r : Z * Z) (q sz : Z) : Prop := fst r <= q /\ q + sz <= snd r.
(** the address an OffsetPtr stored at [addr] denotes *)
Definition target (addr : Z) (p : optr) : Z := addr + o_off p.
Definition is_null (p : optr) : Prop := o_off p = 1.
(** [addr] is no address of (and not the end of) any known region, so the pointer is on the stack/heap *)
Definition outside (os : list rop) (addr : Z) : Prop :=
  forall r, expected os r -> ~ (fst r <= addr <= snd r).

(** copies of an OffsetPtr, one after the other, to the addresses [ts] *)
Fixpoint copies (regs : regions) (src : Z) (p : optr) (ts : list Z) : res (Z * optr) :=
  match ts with
  | [] => Ok (src, p)
  | t :: ts => do p' <- copy true regs src p t; copies regs t p' ts
  end.

(** * Lemmas *)
Lemma add_ok p o q : AddOffset p o = Ok q -> q = p + o /\ p + o <= W64 - 1.
Proof. unfold AddOffset. destruct (Z.leb_spec p (W64 - 1 - o)); intros E; inversion E; subst; split; lia. Qed.
Lemma sub_ok p o q : SubOffset p o = Ok q -> q = p - o /\ o <= p.
Proof. unfold SubOffset. destruct (Z.leb_spec o p); intros E; inversion E; subst; split; lia. Qed.
Lemma adds_ok p o q : AddSignedOffset p o = Ok q -> q = p + o.
Proof.
  unfold AddSignedOffset. destruct (o <? 0); intros E; [apply sub_ok in E|apply add_ok in E]; lia.
Qed.
Lemma adds_intro p o : 0 <= p + o < W64 -> AddSignedOffset p o = Ok (p + o).
Proof.
  intros H. unfold AddSignedOffset, AddOffset, SubOffset. destruct (Z.ltb_spec o 0).
  - destruct (Z.leb_spec (- o) p); [f_equal; lia|lia].
  - destruct (Z.leb_spec p (W64 - 1 - o)); [reflexivity|lia].
Qed.
Lemma adds_res p o : AddSignedOffset p o <> UB.
Proof. unfold AddSignedOffset, AddOffset, SubOffset. destruct (o <? 0), (- o <=? p), (p <=? W64 - 1 - o); discriminate. Qed.
Lemma ptr_res addr o : PointerFromOffset addr o <> UB.
Proof. unfold PointerFromOffset. destruct (o =? kNull); [discriminate|apply adds_res]. Qed.

Lemma ptr_ok addr o q : PointerFromOffset addr o = Ok q -> (o = 1 /\ q = 0) \/ (o <> 1 /\ q = addr + o).
Proof.
  unfold PointerFromOffset, kNull. destruct (Z.eqb_spec o 1); intros E; [inversion E; auto|apply adds_ok in E; auto].
Qed.

Lemma in_bounds_iff q lo hi : in_bounds q lo hi = true <-> lo <= q <= hi.
Proof. unfold in_bounds. rewrite Bool.andb_true_iff, !Z.leb_le. tauto. Qed.

Lemma check_in_shm_ok addr off lo hi sz : check_in_shm addr off lo hi sz = Ok true ->
  addr + OPTR_SIZE <= hi /\ lo <= addr + off /\ addr + off + sz <= hi.
Proof.
  unfold check_in_shm, bind.
  destruct (AddOffset addr OPTR_SIZE) as [e| |] eqn:E1; try discriminate. apply add_ok in E1 as [-> _].
  destruct (in_bounds (addr + OPTR_SIZE) lo hi) eqn:B1; cbn [negb]; [|discriminate].
  destruct (AddSignedOffset addr off) as [q| |] eqn:E2; try discriminate. apply adds_ok in E2 as ->.
  destruct (in_bounds (addr + off) lo hi) eqn:B2; cbn [negb]; [|discriminate].
  destruct (AddOffset (addr + off) sz) as [z| |] eqn:E3; try discriminate. apply add_ok in E3 as [-> _].
  destruct (in_bounds (addr + off + sz) lo hi) eqn:B3; cbn [negb]; [|discriminate].
  rewrite in_bounds_iff in *. lia.
Qed.

Lemma check_in_shm_res addr off lo hi sz : check_in_shm addr off lo hi sz <> UB.
Proof.
  unfold check_in_shm, bind, AddOffset. destruct (addr <=? _); [|discriminate].
  destruct (in_bounds _ _ _); [|discriminate]. cbn [negb].
  destruct (AddSignedOffset addr off) eqn:E; [|discriminate|destruct (adds_res _ _ E)].
  destruct (in_bounds _ _ _); [|discriminate]. cbn [negb].
  destruct (a <=? _); [|discriminate]. destruct (in_bounds _ _ _); discriminate.
Qed.

Lemma check_not_res regs addr p off sz : check_not_in_shm regs addr p off sz <> UB.
Proof.
  unfold check_not_in_shm, bind, AddOffset. destruct (addr <=? _); [|discriminate].
  destruct (GetBoundsFromAddress _ _); [discriminate|]. destruct (has_bounds p); [|discriminate].
  destruct (AddSignedOffset addr off) eqn:E; [|discriminate|destruct (adds_res _ _ E)].
  destruct (in_bounds _ _ _); [|discriminate]. cbn [negb].
  destruct (a <=? _); [|discriminate]. destruct (in_bounds _ _ _); discriminate.
Qed.

Lemma check_not_ok regs addr p off sz : has_bounds p = true -> check_not_in_shm regs addr p off sz = Ok true ->
  o_lo p <= addr + off /\ addr + off + sz <= o_hi p.
Proof.
  intros HB. unfold check_not_in_shm, bind.
  destruct (AddOffset addr OPTR_SIZE) as [e| |]; try discriminate.
  destruct (GetBoundsFromAddress regs e); [discriminate|]. rewrite HB.
  destruct (AddSignedOffset addr off) as [q| |] eqn:E2; try discriminate. apply adds_ok in E2 as ->.
  destruct (in_bounds (addr + off) _ _) eqn:B2; cbn [negb]; [|discriminate].
  destruct (AddOffset (addr + off) sz) as [z| |] eqn:E3; try discriminate. apply add_ok in E3 as [-> _].
  destruct (in_bounds (addr + off + sz) _ _) eqn:B3; cbn [negb]; [|discriminate].
  rewrite in_bounds_iff in *. lia.
Qed.

Lemma access_in_region regs lo hi addr off p sz q :
  GetBoundsFromAddress regs addr = Some (lo, hi) -> GetPointerWithBoundsCheck true regs addr off p sz = Ok q ->
  (q = 0 /\ off = 1) \/ object_inside (lo, hi) q sz.
Proof.
  intros G. unfold GetPointerWithBoundsCheck. rewrite G. unfold bind.
  destruct (check_in_shm addr off lo hi sz) as [[]| |] eqn:C; try discriminate.
  apply check_in_shm_ok in C. intros P. apply ptr_ok in P as [[-> ->]|[_ ->]]; [left; auto|right].
  unfold object_inside. cbn. lia.
Qed.

Lemma access_with_bounds regs addr off p sz q :
  GetBoundsFromAddress regs addr = None -> has_bounds p = true -> GetPointerWithBoundsCheck true regs addr off p sz = Ok q ->
  (q = 0 /\ off = 1) \/ object_inside (o_lo p, o_hi p) q sz.
Proof.
  intros G HB. unfold GetPointerWithBoundsCheck. rewrite G. unfold bind.
  destruct (check_not_in_shm regs addr p off sz) as [[]| |] eqn:C; try discriminate.
  apply check_not_ok in C; [|exact HB]. intros P. apply ptr_ok in P as [[-> ->]|[_ ->]]; [left; auto|right].
  unfold object_inside. cbn. lia.
Qed.

Lemma outside_lookup os regs addr : Forall sane_op os -> rrun [] os = Some regs -> outside os addr ->
  GetBoundsFromAddress regs addr = None.
Proof.
  intros SA E O. destruct (GetBoundsFromAddress regs addr) as [r|] eqn:G; [exfalso|reflexivity].
  apply (C36_lookup_result_partial os regs r addr SA E) in G as [X C].
  assert (fst r < snd r).
  { destruct (rrun_ok os [] regs (fun _ => False) so_nil ltac:(cbn; tauto) SA E) as [SO EQ]. apply EQ in X. clear - SO X.
    induction regs as [|[a b] l IH]; [destruct X|]. destruct X as [<-|X]; [apply sorted_hd in SO; cbn; lia|].
    apply IH; auto. eapply sorted_tl; eauto. }
  apply (O r X). unfold covers in C. lia.
Qed.

(** * C30 *)

(** An OffsetPtr stored in a known region, whatever offset it contains, only yields null or an
    object that lies completely inside that region; otherwise the process terminates. *)
Theorem C30_in_shared_memory : forall os regs r addr p sz q,
  Forall sane_op os -> rrun [] os = Some regs -> expected os r -> covers r addr ->
  get true regs addr p sz = Ok q -> (q = 0 /\ is_null p) \/ object_inside r q sz.
Proof.
  intros os regs r addr p sz q SA E X C G.
  pose proof (C36_lookup_finds_the_region os regs r addr SA E X C) as L. destruct r as [lo hi].
  unfold get in G. eapply access_in_region in G; [|exact L]. exact G.
Qed.

Theorem C30_dereference : forall os regs r addr p sz q,
  Forall sane_op os -> rrun [] os = Some regs -> expected os r -> covers r addr ->
  deref true regs addr p sz = Ok q -> object_inside r q sz.
Proof.
  intros os regs r addr p sz q SA E X C. unfold deref, bind.
  destruct (get true regs addr p sz) as [q'| |] eqn:G; try discriminate.
  destruct (Z.eqb_spec q' 0); [discriminate|]. intros Y. injection Y as <-.
  destruct (C30_in_shared_memory os regs r addr p sz q' SA E X C G) as [[Z _]|I]; [congruence|exact I].
Qed.

Theorem C30_index : forall os regs r addr p sz idx q,
  Forall sane_op os -> rrun [] os = Some regs -> expected os r -> covers r addr ->
  index true regs addr p sz idx = Ok q -> object_inside r q sz.
Proof.
  intros os regs r addr p sz idx q SA E X C. unfold index.
  pose proof (C36_lookup_finds_the_region os regs r addr SA E X C) as L. destruct r as [lo hi].
  destruct (_ || _)%bool; [discriminate|]. unfold bind.
  destruct (GetPointerWithBoundsCheck _ _ _ _ _ _) as [q'| |] eqn:G; try discriminate.
  destruct (Z.eqb_spec q' 0); [discriminate|]. intros Y. injection Y as <-.
  eapply access_in_region in G; [|exact L]. destruct G as [[Z _]|I]; [congruence|exact I].
Qed.

(** The same holds for any chain of copies of such a pointer outside shared memory: the copies stay
    confined to the region of the original. *)
Definition prot (lo hi : Z) (p : optr) : Prop := (o_lo p = lo /\ o_hi p = hi) \/ is_null p.

Lemma raw_null a p : is_null p -> raw a p = Ok 0.
Proof. intros N. unfold raw, PointerFromOffset, kNull. rewrite N. reflexivity. Qed.

Lemma copies_prot regs lo hi : forall ts src p addr p',
  GetBoundsFromAddress regs src = None -> Forall (fun t => GetBoundsFromAddress regs t = None) ts ->
  prot lo hi p -> copies regs src p ts = Ok (addr, p') -> GetBoundsFromAddress regs addr = None /\ prot lo hi p'.
Proof.
  induction ts as [|t ts IH]; intros src p addr p' S F P E; cbn [copies] in E; [injection E as <- <-; auto|].
  inversion F; subst. destruct (copy true regs src p t) as [p1| |] eqn:C; try discriminate. cbn [bind] in E.
  eapply IH; [| | |exact E]; auto. clear IH E.
  unfold copy in C. rewrite S in C. match goal with Q : GetBoundsFromAddress regs t = None |- _ => rewrite Q in C end.
  destruct P as [[B1 B2]|N].
  - unfold bind in C. destruct (raw src p) as [q| |]; try discriminate. destruct (q =? 0).
    + injection C as <-. right. reflexivity.
    + destruct (OffsetFromPointer t q); try discriminate. injection C as <-. left. cbn. auto.
  - rewrite (raw_null src p N) in C. cbn in C. injection C as <-. right. reflexivity.
Qed.

Lemma null_access regs addr p sz q : is_null p -> get true regs addr p sz = Ok q -> q = 0.
Proof.
  unfold get, GetPointerWithBoundsCheck. intros -> G. unfold bind in G.
  destruct (match GetBoundsFromAddress regs addr with Some (_, _) => _ | None => _ end) as [[]| |]; try discriminate.
  injection G as <-. reflexivity.
Qed.

Theorem C30_stack_copies : forall os regs r src p t ts addr p' sz q,
  Forall sane_op os -> rrun [] os = Some regs -> expected os r -> covers r src -> 0 < fst r ->
  Forall (outside os) (t :: ts) -> copies regs src p (t :: ts) = Ok (addr, p') ->
  get true regs addr p' sz = Ok q -> (q = 0 /\ is_null p') \/ object_inside r q sz.
Proof.
  intros os regs r src p t ts addr p' sz q SA E X C PO F K G.
  pose proof (C36_lookup_finds_the_region os regs r src SA E X C) as L. destruct r as [lo hi].
  assert (F' : Forall (fun t => GetBoundsFromAddress regs t = None) (t :: ts)).
  { eapply Forall_impl; [|exact F]. intros u U. eapply outside_lookup; eauto. }
  inversion F'; subst. cbn [copies] in K. destruct (copy true regs src p t) as [p1| |] eqn:CP; try discriminate.
  cbn [bind] in K.
  assert (P1 : prot lo hi p1).
  { unfold copy in CP. rewrite L in CP. match goal with Q : GetBoundsFromAddress regs t = None |- _ => rewrite Q in CP end.
    unfold bind in CP. destruct (raw src p) as [q0| |]; try discriminate.
    destruct (q0 =? 0); [injection CP as <-; right; reflexivity|].
    destruct (OffsetFromPointer t q0); try discriminate. injection CP as <-. left. split; reflexivity. }
  eapply copies_prot in K as [K1 K2]; [|eassumption|assumption|exact P1].
  assert (LH : lo < hi) by (unfold covers in C; cbn in C; lia). cbn in PO.
  destruct K2 as [[B1 B2]|N].
  - assert (HB : has_bounds p' = true).
    { unfold has_bounds. rewrite B1, B2. destruct (Z.eqb_spec lo 0), (Z.eqb_spec hi 0); try lia; reflexivity. }
    apply access_with_bounds in G; [|exact K1|exact HB]. rewrite B1, B2 in G. exact G.
  - left. split; [|exact N]. eapply null_access; eauto.
Qed.

(** Conversely a pointer stored inside a region to an object inside that region is never refused. *)
Theorem C30_valid_access_succeeds : forall os regs r addr p sz,
  Forall sane_op os -> rrun [] os = Some regs -> expected os r -> is_addr (fst r) -> is_addr (snd r) -> 0 <= sz ->
  object_inside r addr OPTR_SIZE -> object_inside r (target addr p) sz -> ~ is_null p ->
  get true regs addr p sz = Ok (target addr p).
Proof.
  intros os regs [lo hi] addr p sz SA E X A1 A2 SZ I1 I2 N. unfold object_inside, target, is_addr, is_null, OPTR_SIZE in *. cbn [fst snd] in *.
  assert (C : covers (lo, hi) addr) by (unfold covers; cbn; lia).
  pose proof (C36_lookup_finds_the_region os regs (lo, hi) addr SA E X C) as L.
  assert (AO : forall a b, a + b < W64 -> AddOffset a b = Ok (a + b)).
  { intros a b H. unfold AddOffset. destruct (Z.leb_spec a (W64 - 1 - b)); [reflexivity|lia]. }
  assert (IB : forall q, lo <= q <= hi -> in_bounds q lo hi = true) by (intros q; apply in_bounds_iff).
  unfold get, GetPointerWithBoundsCheck. rewrite L. unfold check_in_shm, OPTR_SIZE.
  rewrite AO by lia. cbn [bind]. rewrite IB by lia. cbn [negb].
  rewrite adds_intro by lia. cbn [bind]. rewrite IB by lia. cbn [negb].
  rewrite AO by lia. cbn [bind]. rewrite IB by lia. cbn [negb bind].
  unfold PointerFromOffset, kNull. destruct (Z.eqb_spec (o_off p) 1); [congruence|]. apply adds_intro. lia.
Qed.

(** get() and the dereference operators have no undefined behaviour, whatever the offset. *)
Theorem C30_get_defined : forall regs addr p sz,
  get true regs addr p sz <> UB /\ deref true regs addr p sz <> UB.
Proof.
  intros regs addr p sz.
  assert (G : get true regs addr p sz <> UB).
  { unfold get, GetPointerWithBoundsCheck, bind. intros H.
    destruct (GetBoundsFromAddress regs addr) as [[lo hi]|].
    - destruct (check_in_shm addr (o_off p) lo hi sz) as [[]| |] eqn:C; try discriminate; [apply (ptr_res _ _ H)|apply (check_in_shm_res _ _ _ _ _ C)].
    - destruct (check_not_in_shm regs addr p (o_off p) sz) as [[]| |] eqn:C; try discriminate; [apply (ptr_res _ _ H)|apply (check_not_res _ _ _ _ _ C)]. }
  split; [exact G|]. unfold deref, bind. destruct (get true regs addr p sz) as [q| |]; [|discriminate|congruence].
  destruct (q =? 0); discriminate.
Qed.

(** operator[] is different: it adds the index to the stored offset before any check, in signed
    arithmetic.  For an offset an attacker wrote the addition overflows. *)
Theorem C30_index_terminates_refuted : exists os regs r addr p sz idx,
  Forall sane_op os /\ rrun [] os = Some regs /\ expected os r /\ covers r addr /\ is_off (o_off p) /\
  0 <= idx < 10 /\ index true regs addr p sz idx = UB.
Proof.
  exists [RAdd 4096 8192], [(4096, 8192)], (4096, 8192), 4096, (mkOptr (H63 - 1) 0 0), 8, 1.
  repeat split; try (vm_compute; congruence); try (constructor; [vm_compute; reflexivity|constructor]).
  cbn. right. split; [reflexivity|]. intros r' [].
Qed.

(** Apart from that overflow operator[] terminates or returns an element inside the region; with an
    index and a stored offset that do not overflow it is defined. *)
Theorem C30_index_defined_partial : forall regs addr p sz idx,
  is_off (sz * idx) -> is_off (o_off p + sz * idx) -> index true regs addr p sz idx <> UB.
Proof.
  intros regs addr p sz idx A B. unfold index, is_off in *.
  destruct (Z.ltb_spec (sz * idx) (- H63)); [lia|]. destruct (Z.leb_spec H63 (sz * idx)); [lia|].
  destruct (Z.ltb_spec (o_off p + sz * idx) (- H63)); [lia|]. destruct (Z.leb_spec H63 (o_off p + sz * idx)); [lia|].
  cbn [orb]. pose proof (proj2 (C30_get_defined regs addr (mkOptr (o_off p + sz * idx) (o_lo p) (o_hi p)) sz)) as D.
  unfold deref, get in D. cbn [o_off] in D. unfold bind in *.
  replace (GetPointerWithBoundsCheck true regs addr (o_off p + sz * idx) p sz) with
    (GetPointerWithBoundsCheck true regs addr (o_off p + sz * idx) (mkOptr (o_off p + sz * idx) (o_lo p) (o_hi p)) sz)
    by (unfold GetPointerWithBoundsCheck, check_not_in_shm, has_bounds; reflexivity).
  exact D.
Qed.

(** … and exactly then: with an overflow the behaviour is undefined. *)
Theorem C30_index_undefined_exactly_on_overflow : forall regs addr p sz idx,
  index true regs addr p sz idx = UB <-> ~ (is_off (sz * idx) /\ is_off (o_off p + sz * idx)).
Proof.
  intros regs addr p sz idx. split.
  - intros U (A & B). exact (C30_index_defined_partial regs addr p sz idx A B U).
  - intros N. unfold index, is_off in *.
    destruct (Z.ltb_spec (sz * idx) (- H63)); [reflexivity|]. destruct (Z.leb_spec H63 (sz * idx)); [reflexivity|].
    destruct (Z.ltb_spec (o_off p + sz * idx) (- H63)); [reflexivity|]. destruct (Z.leb_spec H63 (o_off p + sz * idx)); [reflexivity|].
    exfalso. apply N. lia.
Qed.

Example C30_example :
  let regs := [(4096, 8192); (16384, 20480)] in
  let p := mkOptr 104 0 0 in                      (* stored at 4096, denotes 4200 *)
  get true regs 4096 p 8 = Ok 4200 /\
  deref true regs 4096 (mkOptr 4088 0 0) 8 = Ok 8184 /\      (* the last object *)
  deref true regs 4096 (mkOptr 4089 0 0) 8 = Term /\         (* one byte too far *)
  deref true regs 4096 (mkOptr (-1) 0 0) 8 = Term /\         (* before the region *)
  deref true regs 4096 (mkOptr (16384 - 4096) 0 0) 8 = Term /\  (* another region *)
  index true regs 4096 p 8 3 = Ok 4224 /\ index true regs 4096 p 8 600 = Term /\
  copies regs 4096 p [30000; 40000] = Ok (40000, mkOptr (4200 - 40000) 4096 8192) /\
  get true regs 40000 (mkOptr (4200 - 40000) 4096 8192) 8 = Ok 4200 /\
  get true regs 40000 (mkOptr (16384 - 40000) 4096 8192) 8 = Term.
Proof. vm_compute. repeat split. Qed.

(** * C35 *)
Theorem C35_difference_exact : forall a b, is_addr a -> is_addr b ->
  (is_off (a - b) -> SubtractPointersBytes a b = Ok (a - b)) /\
  (~ is_off (a - b) -> SubtractPointersBytes a b = Term).
Proof.
  unfold is_addr, is_off. intros a b A B.
  assert (SO : forall x y, y <= x -> SubOffset x y = Ok (x - y)).
  { intros x y H. unfold SubOffset. destruct (Z.leb_spec y x); [reflexivity|lia]. }
  unfold SubtractPointersBytes. destruct (Z.ltb_spec b a).
  - rewrite SO by lia. cbn [bind]. destruct (Z.ltb_spec (H63 - 1) (a - b)); split; intros; try reflexivity; unfold W64, H63 in *; lia.
  - rewrite SO by lia. cbn [bind]. destruct (Z.eqb_spec (b - a) H63).
    + split; intros; [f_equal; lia|unfold W64, H63 in *; lia].
    + destruct (Z.ltb_spec (H63 - 1) (b - a)); split; intros; try reflexivity; try (f_equal; lia); unfold W64, H63 in *; lia.
Qed.

Example C35_example :
  SubtractPointersBytes 0 H63 = Ok (- H63) /\ SubtractPointersBytes H63 0 = Term /\
  SubtractPointersBytes 0 (H63 + 1) = Term /\ SubtractPointersBytes (W64 - 1) H63 = Ok (H63 - 1) /\
  SubtractPointersBytes 4096 8192 = Ok (-4096).
Proof. vm_compute. repeat split. Qed.

(** * C31 *)

(** The raw pointer a copy denotes is the one the original denotes, with bounds checks on or off and
    whatever the recorded bounds are. *)
Lemma offset_ok t q o : is_addr t -> is_addr q -> OffsetFromPointer t q = Ok o ->
  (q = 0 /\ o = 1) \/ (q <> 0 /\ o = q - t /\ o <> 1 /\ is_off o).
Proof.
  intros A B. unfold OffsetFromPointer, kNull. destruct (Z.eqb_spec q 0); [intros E; injection E as <-; auto|].
  destruct (C35_difference_exact q t B A) as [D1 D2].
  assert (DEC : is_off (q - t) \/ ~ is_off (q - t)) by (unfold is_off; lia).
  destruct DEC as [D|D]; [rewrite (D1 D)|rewrite (D2 D); discriminate]. cbn [bind].
  destruct (Z.eqb_spec (q - t) 1); [discriminate|]. intros E. injection E as <-. right. auto.
Qed.

Lemma raw_addr a p q : is_addr a -> raw a p = Ok q -> is_addr q.
Proof.
  unfold raw, PointerFromOffset, is_addr. intros A. destruct (_ =? _); [intros E; injection E as <-; unfold W64; lia|].
  unfold AddSignedOffset. destruct (Z.ltb_spec (o_off p) 0); intros E; [apply sub_ok in E|apply add_ok in E]; lia.
Qed.

Lemma raw_of_offset t q o lo hi : is_addr t -> is_addr q -> OffsetFromPointer t q = Ok o -> raw t (mkOptr o lo hi) = Ok q.
Proof.
  intros A B E. apply offset_ok in E as [[-> ->]|(N & -> & N1 & O)]; auto.
  unfold raw, PointerFromOffset, kNull. cbn [o_off]. destruct (Z.eqb_spec (q - t) 1); [congruence|].
  rewrite adds_intro; [f_equal; lia|]. unfold is_addr in *. lia.
Qed.

Theorem C31_copy_keeps_target : forall chk regs src p tgt p',
  is_addr src -> is_addr tgt -> copy chk regs src p tgt = Ok p' ->
  raw tgt p' = raw src p /\ (is_null p' <-> raw src p = Ok 0).
Proof.
  intros chk regs src p tgt p' A B. unfold copy.
  destruct (if chk then _ else _) as [lo hi]. unfold bind.
  destruct (raw src p) as [q| |] eqn:R; try discriminate. destruct (Z.eqb_spec q 0) as [->|N].
  - intros E. injection E as <-. split; [reflexivity|]. split; intros; reflexivity.
  - destruct (OffsetFromPointer tgt q) as [o| |] eqn:O; try discriminate. intros E. injection E as <-.
    pose proof (raw_addr _ _ _ A R) as Q. split; [apply raw_of_offset; assumption|].
    apply offset_ok in O as [[Z _]|(_ & _ & N1 & _)]; [congruence| |assumption|assumption]. unfold is_null. cbn. split; congruence.
Qed.

(** A copy succeeds whenever the distance is representable and the object does not overlap the bytes
    of the copy itself. *)
Theorem C31_copy_succeeds : forall chk regs src p tgt q,
  is_addr src -> is_addr tgt -> raw src p = Ok q ->
  q = 0 \/ (is_off (q - tgt) /\ ~ (tgt <= q < tgt + OPTR_SIZE)) -> exists p', copy chk regs src p tgt = Ok p'.
Proof.
  intros chk regs src p tgt q A B R H. unfold copy. destruct (if chk then _ else _) as [lo hi]. rewrite R. cbn [bind].
  destruct (Z.eqb_spec q 0) as [->|N]; [eauto|]. destruct H as [->|[O V]]; [congruence|].
  unfold OffsetFromPointer, kNull. destruct (Z.eqb_spec q 0); [congruence|].
  pose proof (raw_addr _ _ _ A R) as Q. rewrite (proj1 (C35_difference_exact q tgt Q B) O). cbn [bind].
  unfold OPTR_SIZE in V. destruct (Z.eqb_spec (q - tgt) 1); [lia|]. cbn [bind]. eauto.
Qed.

(** the same for construction and assignment from a raw pointer *)
Theorem C31_raw_round_trip : forall addr q p, is_addr addr -> is_addr q ->
  assign_raw addr q = Ok p -> raw addr p = Ok q.
Proof.
  intros addr q p A B. unfold assign_raw, bind. destruct (OffsetFromPointer addr q) as [o| |] eqn:O; try discriminate.
  intros E. injection E as <-. apply raw_of_offset; assumption.
Qed.

(** any chain of copies *)
Theorem C31_chain_of_copies : forall regs ts src p addr p',
  is_addr src -> Forall is_addr ts -> copies regs src p ts = Ok (addr, p') -> raw addr p' = raw src p.
Proof.
  intros regs ts. induction ts as [|t ts IH]; intros src p addr p' A F E; cbn [copies] in E; [injection E as <- <-; reflexivity|].
  inversion F; subst. destruct (copy true regs src p t) as [p1| |] eqn:C; try discriminate. cbn [bind] in E.
  rewrite (IH t p1 addr p'); auto. apply C31_copy_keeps_target in C; tauto.
Qed.

Example C31_example :
  let regs := [(4096, 8192); (16384, 20480)] in
  copy true regs 4096 (mkOptr 104 0 0) 16384 = Ok (mkOptr (4200 - 16384) 0 0) /\
  copy true regs 4096 (mkOptr 104 0 0) 30000 = Ok (mkOptr (4200 - 30000) 4096 8192) /\
  copy true regs 4096 (mkOptr 1 0 0) 30000 = Ok (mkOptr 1 0 0) /\
  copy true regs 4096 (mkOptr 104 0 0) 4199 = Term.
Proof. vm_compute. repeat split. Qed.

(** * C32 *)

(** An offset of 1 represents null, but the bounds check treats it as the address one byte after the
    pointer: near the end of a region reading a null OffsetPtr terminates the process. *)
Theorem C32_null_reads_as_null_refuted : exists os regs r addr p sz,
  Forall sane_op os /\ rrun [] os = Some regs /\ expected os r /\ object_inside r addr OPTR_SIZE /\
  addr mod 8 = 0 /\ assign_raw addr 0 = Ok p /\ get true regs addr p sz = Term.
Proof.
  exists [RAdd 4096 8192], [(4096, 8192)], (4096, 8192), 8168, (mkOptr 1 0 0), 32.
  repeat split; try (vm_compute; congruence); try (constructor; [vm_compute; reflexivity|constructor]).
  cbn. right. split; [reflexivity|]. intros r' [].
Qed.

(** With enough room after the pointer, or outside any region, it reads as null. *)
Theorem C32_null_reads_as_null_partial : forall os regs addr p sz,
  Forall sane_op os -> rrun [] os = Some regs -> 0 <= addr -> 0 <= sz -> is_null p ->
  (exists r, expected os r /\ is_addr (snd r) /\ fst r <= addr /\ addr + OPTR_SIZE <= snd r /\ addr + 1 + sz <= snd r) \/
  (outside os addr /\ outside os (addr + OPTR_SIZE) /\ addr + OPTR_SIZE < W64 /\ has_bounds p = false) ->
  get true regs addr p sz = Ok 0.
Proof.
  intros os regs addr p sz SA E A SZ N [([lo hi] & X & AD & L1 & L2 & L3)|(O1 & O2 & AD & HB)];
    unfold get, GetPointerWithBoundsCheck, is_addr, is_null in *; cbn [fst snd] in *; rewrite ?N.
  - unfold OPTR_SIZE in *. assert (C : covers (lo, hi) addr) by (unfold covers; cbn; lia).
    rewrite (C36_lookup_finds_the_region os regs (lo, hi) addr SA E X C).
    unfold check_in_shm, OPTR_SIZE.
    assert (AO : forall a b, a + b < W64 -> AddOffset a b = Ok (a + b)).
    { intros a b H. unfold AddOffset. destruct (Z.leb_spec a (W64 - 1 - b)); [reflexivity|lia]. }
    assert (IB : forall q, lo <= q <= hi -> in_bounds q lo hi = true) by (intros q; apply in_bounds_iff).
    rewrite AO by lia. cbn [bind]. rewrite IB by lia. cbn [negb].
    rewrite adds_intro by lia. cbn [bind]. rewrite IB by lia. cbn [negb].
    rewrite AO by lia. cbn [bind]. rewrite IB by lia. reflexivity.
  - rewrite (outside_lookup os regs addr SA E O1). unfold check_not_in_shm.
    unfold AddOffset. destruct (Z.leb_spec addr (W64 - 1 - OPTR_SIZE)); [|lia]. cbn [bind].
    rewrite (outside_lookup os regs _ SA E O2), HB. reflexivity.
Qed.

(** a null OffsetPtr never reads as anything else *)
Theorem C32_never_non_null : forall chk regs addr p sz q, is_null p -> get chk regs addr p sz = Ok q -> q = 0.
Proof.
  intros [] regs addr p sz q N; [apply null_access; exact N|].
  unfold get, GetPointerWithBoundsCheck. rewrite N. cbn. congruence.
Qed.

Example C32_example :
  let regs := [(4096, 8192)] in
  get true regs 4096 (mkOptr 1 0 0) 32 = Ok 0 /\ get true regs 30000 (mkOptr 1 0 0) 32 = Ok 0 /\
  get true regs (4096 - 24) (mkOptr 1 0 0) 32 = Term /\   (* on the stack directly below a region *)
  index true regs 4096 (mkOptr 1 0 0) 8 5 = Ok 4137.      (* null[5] is not recognised as null *)
Proof. vm_compute. repeat split. Qed.

(** * C33 *)
Theorem C33_swap_exchanges_targets : forall chk regs la l ra r l' r',
  is_addr la -> is_addr ra -> la <> ra -> swap chk regs la l ra r = Ok (l', r') ->
  raw la l' = raw ra r /\ raw ra r' = raw la l.
Proof.
  intros chk regs la l ra r l' r' A B N. unfold swap, bind.
  destruct (raw ra r) as [q| |] eqn:R; try discriminate.
  unfold copy_assign. destruct (Z.eqb_spec la ra); [congruence|].
  destruct (copy chk regs la l ra) as [r1| |] eqn:C; try discriminate.
  destruct (assign_raw la q) as [l1| |] eqn:S; try discriminate. intros E. injection E as <- <-.
  split; [|apply C31_copy_keeps_target in C; tauto].
  apply C31_raw_round_trip in S; auto. eapply raw_addr; [|exact R]. exact B.
Qed.

(** The left pointer loses its recorded bounds: two confined copies on the stack, after swap the
    left one can be moved outside the region and is still handed out. *)
Theorem C33_keeps_protection_refuted : exists os regs rg src1 p1 src2 p2 la l ra r l' r' l2 q,
  Forall sane_op os /\ rrun [] os = Some regs /\ expected os rg /\ covers rg src1 /\ covers rg src2 /\
  outside os la /\ outside os ra /\
  copies regs src1 p1 [la] = Ok (la, l) /\ copies regs src2 p2 [ra] = Ok (ra, r) /\
  swap true regs la l ra r = Ok (l', r') /\
  add_assign l' 8 1000 = Ok l2 /\ get true regs la l2 8 = Ok q /\ ~ object_inside rg q 8.
Proof.
  exists [RAdd 4096 8192], [(4096, 8192)], (4096, 8192), 4096, (mkOptr 104 0 0), 4200, (mkOptr 200 0 0),
    30000, (mkOptr (4200 - 30000) 4096 8192), 40000, (mkOptr (4400 - 40000) 4096 8192),
    (mkOptr (4400 - 30000) 0 0), (mkOptr (4200 - 40000) 4096 8192), (mkOptr (12400 - 30000) 0 0), 12400.
  split; [constructor; [vm_compute; reflexivity|constructor]|]. split; [reflexivity|].
  split; [cbn; right; split; [reflexivity|intros r' []]|].
  split; [vm_compute; split; congruence|]. split; [vm_compute; split; congruence|].
  split; [intros r [[]|[-> _]]; cbn; lia|]. split; [intros r [[]|[-> _]]; cbn; lia|].
  repeat (split; [vm_compute; reflexivity|]). unfold object_inside. cbn. lia.
Qed.

(** What does stay protected: every pointer stored in a region, and the right one. *)
Theorem C33_keeps_protection_partial : forall os regs la l ra r l' r' rg sz q,
  Forall sane_op os -> rrun [] os = Some regs -> expected os rg -> la <> ra -> 0 < fst rg ->
  swap true regs la l ra r = Ok (l', r') ->
  (covers rg la -> get true regs la l' sz = Ok q -> (q = 0 /\ is_null l') \/ object_inside rg q sz) /\
  (covers rg ra -> get true regs ra r' sz = Ok q -> (q = 0 /\ is_null r') \/ object_inside rg q sz) /\
  (covers rg la -> outside os ra -> get true regs ra r' sz = Ok q -> (q = 0 /\ is_null r') \/ object_inside rg q sz) /\
  (outside os la -> outside os ra -> (o_lo l, o_hi l) = rg -> get true regs ra r' sz = Ok q ->
     (q = 0 /\ is_null r') \/ object_inside rg q sz).
Proof.
  intros os regs la l ra r l' r' rg sz q SA E X N PO. unfold swap, bind.
  destruct (raw ra r) as [q0| |] eqn:R; try discriminate.
  unfold copy_assign. destruct (Z.eqb_spec la ra); [congruence|].
  destruct (copy true regs la l ra) as [r1| |] eqn:C; try discriminate.
  destruct (assign_raw la q0) as [l1| |] eqn:S; try discriminate. intros Y. injection Y as <- <-.
  split; [intros CV; eapply C30_in_shared_memory; eauto|].
  split; [intros CV; eapply C30_in_shared_memory; eauto|].
  split.
  - intros CV O. eapply (C30_stack_copies os regs rg la l ra [] ra r1); eauto.
    cbn [copies]. rewrite C. reflexivity.
  - intros O1 O2 B G. destruct rg as [lo hi]. injection B as B1 B2. cbn [fst] in PO.
    pose proof (outside_lookup os regs la SA E O1) as L1. pose proof (outside_lookup os regs ra SA E O2) as L2.
    assert (K : copies regs la l [ra] = Ok (ra, r1)) by (cbn [copies]; rewrite C; reflexivity).
    assert (P : prot lo hi l) by (left; auto).
    eapply copies_prot in K as [_ [[P1 P2]|NL]]; [| |exact L1|constructor; [exact L2|constructor]|exact P].
    + assert (LH : lo < hi).
      { destruct (rrun_ok os [] regs (fun _ => False) so_nil ltac:(cbn; tauto) SA E) as [SO EQ]. apply EQ in X. clear - SO X.
        induction regs as [|[a b] g IH]; [destruct X|]. destruct X as [X|X]; [injection X as <- <-; apply sorted_hd in SO; lia|].
        apply IH; auto. eapply sorted_tl; eauto. }
      assert (HB : has_bounds r1 = true).
      { unfold has_bounds. rewrite P1, P2. destruct (Z.eqb_spec lo 0), (Z.eqb_spec hi 0); try lia; reflexivity. }
      apply access_with_bounds in G; [|exact L2|exact HB]. rewrite P1, P2 in G. exact G.
    + left. split; [|exact NL]. eapply null_access; eauto.
Qed.

(** * C34 *)
Lemma mod_off s : is_off s -> s mod W64 = if s <? 0 then s + W64 else s.
Proof.
  unfold is_off. intros H. destruct (Z.ltb_spec s 0).
  - replace s with (s + W64 + (-1) * W64) at 1 by lia. rewrite Z.mod_add by (unfold W64; lia).
    apply Z.mod_small. unfold W64, H63 in *. lia.
  - apply Z.mod_small. unfold W64, H63 in *. lia.
Qed.

Lemma undo_ok v : is_off v -> UndoCast (v mod W64) = v.
Proof.
  intros H. rewrite (mod_off v H). unfold UndoCast, is_off in *.
  assert (M : (- H63) mod W64 = H63) by reflexivity. rewrite M.
  destruct (Z.ltb_spec v 0).
  - destruct (Z.leb_spec (v + W64) (H63 - 1)); [unfold W64, H63 in *; lia|].
    rewrite Z.mod_small by (unfold W64, H63 in *; lia). unfold W64, H63 in *; lia.
  - destruct (Z.leb_spec v (H63 - 1)); [reflexivity|lia].
Qed.

Lemma add_uts s u : is_off s -> 0 <= u < W64 ->
  AddUnsignedToSigned s u = if s + u <? H63 then Ok (s + u) else Term.
Proof.
  intros S U. unfold AddUnsignedToSigned. rewrite Zplus_mod_idemp_l.
  destruct (Z.ltb_spec (s + u) H63).
  - rewrite undo_ok by (unfold is_off in *; lia). destruct (Z.leb_spec s (s + u)); [reflexivity|lia].
  - assert (M : (s + u) mod W64 = (s + u - W64) mod W64)
      by (rewrite <- (Z.mod_add (s + u - W64) 1 W64) by (unfold W64; lia); f_equal; lia).
    rewrite M.
    rewrite undo_ok by (unfold is_off, W64, H63 in *; lia).
    destruct (Z.leb_spec s (s + u - W64)); [lia|reflexivity].
Qed.

Lemma sub_uts s u : is_off s -> 0 <= u < W64 ->
  SubtractUnsignedFromSigned s u = if - H63 <=? s - u then Ok (s - u) else Term.
Proof.
  intros S U. unfold SubtractUnsignedFromSigned. rewrite Zminus_mod_idemp_l.
  destruct (Z.leb_spec (- H63) (s - u)).
  - rewrite undo_ok by (unfold is_off in *; lia). destruct (Z.leb_spec (s - u) s); [reflexivity|lia].
  - assert (M : (s - u) mod W64 = (s - u + W64) mod W64)
      by (rewrite <- (Z.mod_add (s - u) 1 W64) by (unfold W64; lia); f_equal; lia).
    rewrite M.
    rewrite undo_ok by (unfold is_off, W64, H63 in *; lia).
    destruct (Z.leb_spec (s - u + W64) s); [lia|reflexivity].
Qed.

Lemma abs_val d : is_off d -> AbsoluteValue d = Z.abs d.
Proof. unfold AbsoluteValue, is_off. destruct (Z.eqb_spec d (- H63)); unfold H63 in *; lia. Qed.

Lemma inc_ok p sz n : is_off (o_off p) -> 0 < sz -> 0 <= n ->
  IncrementOffset p sz n = if o_off p + n * sz <? H63 then Ok (mkOptr (o_off p + n * sz) (o_lo p) (o_hi p)) else Term.
Proof.
  intros O S N. unfold IncrementOffset. pose proof (Z.div_mod (W64 - 1) sz ltac:(lia)). pose proof (Z.mod_pos_bound (W64 - 1) sz ltac:(lia)).
  destruct (Z.leb_spec n ((W64 - 1) / sz)).
  - rewrite add_uts; [|exact O|split; [nia|]].
    + destruct (o_off p + n * sz <? H63); reflexivity.
    + assert (n * sz <= sz * ((W64 - 1) / sz)) by nia. lia.
  - destruct (Z.ltb_spec (o_off p + n * sz) H63); [exfalso|reflexivity].
    assert (sz * ((W64 - 1) / sz) + sz <= n * sz) by nia. unfold is_off, W64, H63 in *. lia.
Qed.

Lemma dec_ok p sz n : is_off (o_off p) -> 0 < sz -> 0 <= n ->
  DecrementOffset p sz n = if - H63 <=? o_off p - n * sz then Ok (mkOptr (o_off p - n * sz) (o_lo p) (o_hi p)) else Term.
Proof.
  intros O S N. unfold DecrementOffset. pose proof (Z.div_mod (W64 - 1) sz ltac:(lia)). pose proof (Z.mod_pos_bound (W64 - 1) sz ltac:(lia)).
  destruct (Z.leb_spec n ((W64 - 1) / sz)).
  - rewrite sub_uts; [|exact O|split; [nia|]].
    + destruct (- H63 <=? o_off p - n * sz); reflexivity.
    + assert (n * sz <= sz * ((W64 - 1) / sz)) by nia. lia.
  - destruct (Z.leb_spec (- H63) (o_off p - n * sz)); [exfalso|reflexivity].
    assert (sz * ((W64 - 1) / sz) + sz <= n * sz) by nia. unfold is_off, W64, H63 in *. lia.
Qed.

(** Addition and subtraction are exact, or the process terminates; which of the two is decided only
    by whether the mathematical result is a 64 bit offset. *)
Theorem C34_addition_exact : forall p sz d, is_off (o_off p) -> is_off d -> 0 < sz ->
  add_assign p sz d = if (- H63 <=? o_off p + d * sz) && (o_off p + d * sz <? H63)
                      then Ok (mkOptr (o_off p + d * sz) (o_lo p) (o_hi p)) else Term.
Proof.
  intros p sz d O D S. unfold add_assign. rewrite abs_val by exact D. destruct (Z.ltb_spec 0 d).
  - rewrite inc_ok by (auto; lia). destruct (Z.leb_spec (- H63) (o_off p + d * sz)); [reflexivity|unfold is_off in *; nia].
  - destruct (Z.ltb_spec d 0).
    + rewrite dec_ok by (auto; lia). replace (o_off p - Z.abs d * sz) with (o_off p + d * sz) by nia.
      destruct (Z.ltb_spec (o_off p + d * sz) H63); [rewrite Bool.andb_true_r; reflexivity|unfold is_off in *; nia].
    + replace d with 0 by lia. rewrite Z.mul_0_l, Z.add_0_r. unfold is_off in O.
      destruct (Z.leb_spec (- H63) (o_off p)); [|lia]. destruct (Z.ltb_spec (o_off p) H63); [|lia]. destruct p; reflexivity.
Qed.

Theorem C34_subtraction_exact : forall p sz d, is_off (o_off p) -> is_off d -> 0 < sz ->
  sub_assign p sz d = if (- H63 <=? o_off p - d * sz) && (o_off p - d * sz <? H63)
                      then Ok (mkOptr (o_off p - d * sz) (o_lo p) (o_hi p)) else Term.
Proof.
  intros p sz d O D S. unfold sub_assign. rewrite abs_val by exact D. destruct (Z.ltb_spec 0 d).
  - rewrite dec_ok by (auto; lia). destruct (Z.ltb_spec (o_off p - d * sz) H63); [rewrite Bool.andb_true_r; reflexivity|unfold is_off in *; nia].
  - destruct (Z.ltb_spec d 0).
    + rewrite inc_ok by (auto; lia). replace (o_off p + Z.abs d * sz) with (o_off p - d * sz) by nia.
      destruct (Z.leb_spec (- H63) (o_off p - d * sz)); [reflexivity|unfold is_off in *; nia].
    + replace d with 0 by lia. rewrite Z.mul_0_l, Z.sub_0_r. unfold is_off in O.
      destruct (Z.leb_spec (- H63) (o_off p)); [|lia]. destruct (Z.ltb_spec (o_off p) H63); [|lia]. destruct p; reflexivity.
Qed.

(** Moving a pointer by [d] elements moves the raw pointer by [d * sz] bytes, provided the result is
    not the byte after the OffsetPtr's own address (whose offset 1 means null). *)
Theorem C34_agrees_with_raw_pointers_partial : forall addr p sz d p' q,
  is_addr addr -> is_off (o_off p) -> is_off d -> 0 < sz -> ~ is_null p ->
  raw addr p = Ok q -> is_addr (q + d * sz) -> q + d * sz <> addr + 1 ->
  add_assign p sz d = Ok p' -> raw addr p' = Ok (q + d * sz).
Proof.
  intros addr p sz d p' q A O D S N R B NE E. rewrite C34_addition_exact in E by assumption.
  destruct (_ && _)%bool; [injection E as <-|discriminate].
  unfold raw in R. apply ptr_ok in R as [[Z _]|[_ ->]]; [exfalso; apply N; exact Z|].
  unfold raw, PointerFromOffset, kNull. cbn [o_off]. destruct (Z.eqb_spec (o_off p + d * sz) 1); [lia|].
  rewrite adds_intro by (unfold is_addr in B; lia). f_equal. lia.
Qed.

Theorem C34_agrees_with_raw_pointers_refuted : exists addr p sz d p' q,
  is_addr addr /\ is_off (o_off p) /\ 0 < sz /\ ~ is_null p /\
  raw addr p = Ok q /\ is_addr (q + d * sz) /\ add_assign p sz d = Ok p' /\ raw addr p' = Ok 0.
Proof.
  exists 4096, (mkOptr (-39) 0 0), 1, 40, (mkOptr 1 0 0), 4057.
  repeat split; try (vm_compute; congruence); vm_compute; intros; discriminate.
Qed.

(** The difference of two pointers is the number of elements between them, wherever they are stored. *)
Theorem C34_difference : forall a1 p1 a2 p2 sz n q,
  is_addr a1 -> is_addr a2 -> 0 < sz -> raw a2 p2 = Ok q -> raw a1 p1 = Ok (q + n * sz) -> is_off (n * sz) ->
  difference a1 p1 a2 p2 sz = Ok n.
Proof.
  intros a1 p1 a2 p2 sz n q A1 A2 S R2 R1 O. unfold difference. rewrite R1, R2. cbn [bind].
  rewrite (proj1 (C35_difference_exact (q + n * sz) q (raw_addr _ _ _ A1 R1) (raw_addr _ _ _ A2 R2))) by (replace (q + n * sz - q) with (n * sz) by lia; exact O).
  cbn [bind]. replace (q + n * sz - q) with (n * sz) by lia. rewrite Z.mod_mul, Z.div_mul by lia. reflexivity.
Qed.

Theorem C34_difference_never_wrong : forall a1 p1 a2 p2 sz n,
  is_addr a1 -> is_addr a2 -> 0 < sz -> difference a1 p1 a2 p2 sz = Ok n ->
  exists q1 q2, raw a1 p1 = Ok q1 /\ raw a2 p2 = Ok q2 /\ q1 = q2 + n * sz.
Proof.
  intros a1 p1 a2 p2 sz n A1 A2 S. unfold difference, bind.
  destruct (raw a1 p1) as [q1| |] eqn:R1; try discriminate. destruct (raw a2 p2) as [q2| |] eqn:R2; try discriminate.
  destruct (SubtractPointersBytes q1 q2) as [d| |] eqn:D; try discriminate.
  destruct (Z.eqb_spec (d mod sz) 0); [|discriminate]. intros E. injection E as <-. exists q1, q2. split; [reflexivity|]. split; [reflexivity|].
  destruct (C35_difference_exact q1 q2 (raw_addr _ _ _ A1 R1) (raw_addr _ _ _ A2 R2)) as [D1 D2].
  assert (DEC : is_off (q1 - q2) \/ ~ is_off (q1 - q2)) by (unfold is_off; lia).
  destruct DEC as [Y|Y]; [rewrite (D1 Y) in D; injection D as <-|rewrite (D2 Y) in D; discriminate].
  pose proof (Z.div_mod (q1 - q2) sz ltac:(lia)). lia.
Qed.

(** Comparisons agree with those of the raw pointers. *)
Theorem C34_comparisons : forall a1 p1 a2 p2 q1 q2, raw a1 p1 = Ok q1 -> raw a2 p2 = Ok q2 ->
  (exists b, op_eq a1 p1 a2 p2 = Ok b /\ (b = true <-> q1 = q2)) /\
  (exists b, op_lt a1 p1 a2 p2 = Ok b /\ (b = true <-> q1 < q2)) /\
  (exists b, op_le a1 p1 a2 p2 = Ok b /\ (b = true <-> q1 <= q2)).
Proof.
  intros a1 p1 a2 p2 q1 q2 R1 R2. unfold op_eq, op_lt, op_le. rewrite R1, R2. cbn [bind].
  split; [exists (q1 =? q2); split; [reflexivity|apply Z.eqb_eq]|].
  split; [exists (q1 <? q2); split; [reflexivity|apply Z.ltb_lt]|exists (q1 <=? q2); split; [reflexivity|apply Z.leb_le]].
Qed.

Example C34_example :
  add_assign (mkOptr 100 0 0) 8 (-20) = Ok (mkOptr (-60) 0 0) /\
  add_assign (mkOptr (H63 - 9) 0 0) 8 1 = Ok (mkOptr (H63 - 1) 0 0) /\
  add_assign (mkOptr (H63 - 8) 0 0) 8 1 = Term /\
  add_assign (mkOptr 0 0 0) 8 (- H63) = Term /\
  add_assign (mkOptr (H63 - 1) 0 0) 1 (- H63) = Ok (mkOptr (-1) 0 0) /\
  sub_assign (mkOptr (-1) 0 0) 1 (- H63) = Ok (mkOptr (H63 - 1) 0 0) /\
  sub_assign (mkOptr (- H63) 0 0) 16 1 = Term /\
  difference 4096 (mkOptr 104 0 0) 8192 (mkOptr (4100 - 8192) 0 0) 4 = Ok 25 /\
  difference 4096 (mkOptr 104 0 0) 8192 (mkOptr (4100 - 8192) 0 0) 3 = Term.
Proof. vm_compute. repeat split. Qed.

Print Assumptions C30_in_shared_memory.
Print Assumptions C30_dereference.
Print Assumptions C30_index.
Print Assumptions C30_index_undefined_exactly_on_overflow.
Print Assumptions C30_stack_copies.
Print Assumptions C30_valid_access_succeeds.
Print Assumptions C30_get_defined.
Print Assumptions C31_copy_keeps_target.
Print Assumptions C31_copy_succeeds.
Print Assumptions C31_chain_of_copies.
Print Assumptions C32_null_reads_as_null_partial.
Print Assumptions C33_swap_exchanges_targets.
Print Assumptions C33_keeps_protection_partial.
Print Assumptions C34_addition_exact.
Print Assumptions C34_subtraction_exact.
Print Assumptions C34_agrees_with_raw_pointers_partial.
Print Assumptions C34_difference.
Print Assumptions C35_difference_exact.
