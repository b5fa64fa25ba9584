(** C105: pointers to arguments and results of method calls. *)
From Verif Require Import Base PtrModel PtrSpec PtrProofs.

(** No two live pointers ever refer to the same argument or result, whatever the program does with
    Allocate, moves, destruction and calls, as long as calls are given live pointers to the arguments
    of the called method. *)
Theorem C105_exclusive : forall c s i j k, reach c s -> holds s i k -> holds s j k -> i = j.
Proof. intros c s i j k R. apply (inv_uniq c s (reach_inv c s R)). Qed.

(** A slot is not used for arguments of a coming call while the result of an earlier one is still
    held. *)
Theorem C105_result_not_shared : forall c s m p i a b, reach c s ->
  holds s a (m, p, Some i) -> ~ holds s b (m, p, None).
Proof.
  intros c s m p i a b R A B. pose proof (reach_inv c s R) as I.
  apply (inv_excl c s I m p i); apply (inv_flag c s I); eexists; eassumption.
Qed.

(** The queue is reported as full exactly when a live pointer refers to each of its slots: pointers
    that were destroyed, consumed by calls or belong to failed calls do not count. *)
Theorem C105_full : forall c s o m, reach c s -> proper c s o ->
  (exists sub, o = Allocate m sub) \/ (exists vs sub a, o = CallCopy m vs sub a) \/ (exists a, o = Call0 m a) ->
  (snd (step c s o) = RFull <-> forall p, p < qsize c -> in_use s m p).
Proof.
  intros c s o m R PR O. pose proof (reach_inv c s R) as I.
  rewrite <- (next_slot_none c s m I).
  destruct O as [[sub ->]|[[vs [sub [a ->]]]|[a ->]]]; cbn [proper] in PR.
  - unfold step. apply Nat.eqb_neq in PR. rewrite PR. unfold allocate.
    destruct (next_slot c s m) as [p|]; [|split; reflexivity]. destruct sub; split; discriminate.
  - destruct PR as [N L]. destruct (next_slot c s m) as [p|] eqn:E.
    + split; [|discriminate]. destruct sub.
      * destruct (callcopy_spec c s m vs a p I N L E) as [s' [S1 _]]. rewrite S1. cbn [snd]. destruct a; discriminate.
      * unfold step. rewrite L, Nat.eqb_refl. apply Nat.eqb_neq in N. rewrite N. cbn [orb negb].
        unfold allocate. rewrite E. discriminate.
    + unfold step. rewrite L, Nat.eqb_refl. apply Nat.eqb_neq in N. rewrite N. cbn [orb negb].
      unfold allocate. rewrite E. split; reflexivity.
  - destruct PR as [N HR]. destruct (next_slot c s m) as [p|] eqn:E.
    + split; [|discriminate]. destruct (call0_spec c s m a p I N HR E) as [s' [S1 _]]. rewrite S1. destruct a; discriminate.
    + unfold step. rewrite N, HR, E. split; reflexivity.
Qed.

(** Allocate hands out new live pointers to all arguments of the first slot no live pointer refers to,
    and changes no other pointer. *)
Theorem C105_allocate : forall c s m sub ids, reach c s -> nargs c m <> 0 ->
  snd (step c s (Allocate m sub)) = RPtrs ids ->
  let s' := fst (step c s (Allocate m sub)) in
  sub = true /\ length ids = nargs c m /\
  exists p, p < qsize c /\ ~ in_use s m p /\ (forall q, q < p -> in_use s m q) /\
    (forall i id, nth_error ids i = Some id -> holds s' id (m, p, Some i) /\ forall k, ~ holds s id k) /\
    (forall j k, ~ In j ids -> (holds s' j k <-> holds s j k)) /\
    (forall k, val s' k = val s k).
Proof.
  intros c s m sub ids R N. pose proof (reach_inv c s R) as I. unfold step.
  apply Nat.eqb_neq in N as N'. rewrite N'. unfold allocate.
  destruct (next_slot c s m) as [p|] eqn:E; [|discriminate]. destruct sub; [|discriminate].
  cbn [fst snd]. intros H. injection H as <-. split; [reflexivity|]. split; [apply seq_length|].
  destruct (next_slot_some c s m p I E) as [P [F LO]].
  destruct (new_ptrs_spec m p (nargs c m) 0 s) as [S1 [S2 [S3 S4]]]. fold (new_ptrs s m p (nargs c m)) in S1, S2, S3, S4.
  exists p. split; [exact P|]. split.
  { intros [j [e J]]. exact (inv_noflag c s _ I (F e) j J). }
  split; [exact LO|]. split.
  { intros i id X. apply seq_nth_error in X. destruct X as [X ->]. split.
    - apply S3. right. exists i. auto.
    - intros k K. apply holds_lt in K. lia. }
  split; [|intros k; now rewrite S2].
  intros j k NJ. rewrite S3. split; [|auto]. intros [A|[i [L [-> _]]]]; [exact A|].
  exfalso. apply NJ. apply in_seq. lia.
Qed.

(** A call with pointers: if it works, the handler is given exactly the values the pointers passed
    designate, in order; the caller gets a new live pointer to the value the handler produced. The
    pointers passed are used up, and if the call fails or the method is void the slot is free again.
    No other pointer and no value another live pointer designates is touched. *)
Theorem C105_call : forall c s m ids a, reach c s -> proper c s (Call m ids a) ->
  let s' := fst (step c s (Call m ids a)) in
  let r := snd (step c s (Call m ids a)) in
  (forall v, a = Ok v -> exists given ret, r = RDone given ret /\ length given = nargs c m /\
     (forall i id k g, nth_error ids i = Some id -> holds s id k -> nth_error given i = Some g -> g = val s k) /\
     (if hasret c m
      then exists rid k, ret = Some rid /\ (forall k, ~ holds s rid k) /\ holds s' rid k /\ val s' k = v
      else ret = None)) /\
  ((forall v, a <> Ok v) -> r = RError) /\
  (forall id k, In id ids -> ~ holds s' id k) /\
  (forall id m' p e, holds s id (m', p, e) -> In id ids ->
     ((forall v, a <> Ok v) \/ hasret c m = false) -> ~ in_use s' m' p) /\
  (forall id k, holds s id k -> ~ In id ids -> holds s' id k /\ val s' k = val s k).
Proof.
  intros c s m ids a R PR. pose proof (reach_inv c s R) as I. destruct PR as [N [L [p H]]]. cbn zeta.
  rewrite step_call by assumption.
  destruct (call_proper_range c s m ids p I N L H) as [P FN].
  pose proof (call_spec c s m p ids a I N L H) as C.
  pose proof (called_inv c s m p ids a _ _ I P L H FN C) as I'.
  set (s' := fst (call c s m ids a)) in *. set (r := snd (call c s m ids a)) in *.
  assert (INV : forall j k, holds s j k -> In j ids -> exists i, i < nargs c m /\ k = (m, p, Some i)).
  { intros j k A J. apply In_nth_error in J. destruct J as [i X]. exists i. split; [rewrite <- L; eapply nth_lt, X|].
    pose proof (H i j X) as G. unfold holds in *. congruence. }
  split.
  { intros v ->. pose proof (ca_res _ _ _ _ _ _ _ _ C) as RE. cbn in RE. rewrite RE. do 2 eexists. split; [reflexivity|].
    unfold slot_args. rewrite map_length, seq_length. split; [reflexivity|]. split.
    - intros i id k g X K G. pose proof (H i id X) as HK. assert (k = (m, p, Some i)) by (unfold holds in *; congruence). subst k.
      rewrite nth_error_map in G. destruct (nth_error (seq 0 (nargs c m)) i) as [x|] eqn:Q; [|discriminate].
      apply seq_nth_error in Q. destruct Q as [_ ->]. injection G as <-. reflexivity.
    - destruct (hasret c m) eqn:HR; [|reflexivity].
      exists (length (objs s)), (m, p, None). split; [reflexivity|]. split; [intros k K; apply holds_lt in K; lia|].
      split; [|apply (ca_ok _ _ _ _ _ _ _ _ C v eq_refl HR)].
      apply (ca_holds _ _ _ _ _ _ _ _ C). right. exists v. auto. }
  split.
  { intros NO. rewrite (ca_res _ _ _ _ _ _ _ _ C). destruct a; [reflexivity..|]. exfalso. eapply NO. reflexivity. }
  split.
  { intros id k J K. destruct (ca_used _ _ _ _ _ _ _ _ C id J) as [k' U]. unfold holds in K. congruence. }
  split.
  { intros id m' p' e A J NO. destruct (INV id _ A J) as [i [_ X]]. injection X as -> -> ->.
    intros [j [e' B]]. apply (ca_holds _ _ _ _ _ _ _ _ C) in B.
    destruct B as [[B NB]|[v [X [HR _]]]].
    - destruct e' as [x|].
      + pose proof (inv_range c s I j _ B) as [_ LX]. rewrite <- L in LX. apply nth_error_Some in LX.
        destruct (nth_error ids x) as [id'|] eqn:Q; [|congruence].
        pose proof (H x id' Q) as G. rewrite (inv_uniq c s I j id' _ B G) in NB. apply NB. eapply nth_error_In, Q.
      + exact (inv_noflag c s _ I FN j B).
    - destruct NO as [NO|NO]; [exact (NO v X)|congruence]. }
  intros id k A NJ. split; [apply (ca_holds _ _ _ _ _ _ _ _ C); left; auto|].
  apply (ca_val _ _ _ _ _ _ _ _ C). intros ->. exact (inv_noflag c s _ I FN id A).
Qed.

(** A call with values: the handler is given exactly these values, the caller gets a new live pointer
    to the handler's result, and nothing another live pointer designates is touched. *)
Theorem C105_call_copy : forall c s m vs sub a, reach c s -> proper c s (CallCopy m vs sub a) ->
  let s' := fst (step c s (CallCopy m vs sub a)) in
  let r := snd (step c s (CallCopy m vs sub a)) in
  (forall given ret, r = RDone given ret -> given = vs /\ exists v, a = Ok v /\
     if hasret c m
     then exists rid k, ret = Some rid /\ (forall k, ~ holds s rid k) /\ holds s' rid k /\ val s' k = v
     else ret = None) /\
  (forall v, a = Ok v -> sub = true -> r <> RFull -> exists given ret, r = RDone given ret) /\
  (forall id k, holds s id k -> holds s' id k /\ val s' k = val s k) /\
  (forall id k, holds s' id k -> (forall k, ~ holds s id k) -> exists given, r = RDone given (Some id)).
Proof.
  intros c s m vs sub a R PR. pose proof (reach_inv c s R) as I. destruct PR as [N L]. cbn zeta.
  assert (IDLE : forall r, step c s (CallCopy m vs sub a) = (s, r) -> (r = RFull \/ (r = RError /\ sub = false)) ->
    (forall given ret, snd (step c s (CallCopy m vs sub a)) = RDone given ret -> given = vs /\ exists v, a = Ok v /\
     if hasret c m
     then exists rid k, ret = Some rid /\ (forall k, ~ holds s rid k) /\ holds (fst (step c s (CallCopy m vs sub a))) rid k /\ val (fst (step c s (CallCopy m vs sub a))) k = v
     else ret = None) /\
    (forall v, a = Ok v -> sub = true -> snd (step c s (CallCopy m vs sub a)) <> RFull -> exists given ret, snd (step c s (CallCopy m vs sub a)) = RDone given ret) /\
    (forall id k, holds s id k -> holds (fst (step c s (CallCopy m vs sub a))) id k /\ val (fst (step c s (CallCopy m vs sub a))) k = val s k) /\
    (forall id k, holds (fst (step c s (CallCopy m vs sub a))) id k -> (forall k, ~ holds s id k) -> exists given, snd (step c s (CallCopy m vs sub a)) = RDone given (Some id))).
  { intros r E Q. rewrite E. cbn [fst snd]. split; [|split; [|split]].
    - intros g t X. destruct Q as [->|[-> _]]; discriminate.
    - intros v _ S NF. destruct Q as [->|[_ Q]]; congruence.
    - intros id k K. auto.
    - intros id k K NK. exfalso. exact (NK k K). }
  destruct (next_slot c s m) as [p|] eqn:E.
  - destruct sub.
    + destruct (callcopy_spec c s m vs a p I N L E) as [s' [S1 [S2 [S3 [S4 S5]]]]]. rewrite S1. cbn [fst snd].
      destruct (next_slot_some c s m p I E) as [P [F _]].
      split.
      { intros given ret Q. destruct a as [|w|v]; try discriminate. injection Q as <- <-. split; [reflexivity|].
        exists v. split; [reflexivity|]. destruct (hasret c m) eqn:HR; [|reflexivity].
        exists (length (objs s) + nargs c m), (m, p, None). split; [reflexivity|].
        split; [intros k K; apply holds_lt in K; lia|]. split; [|apply S5; reflexivity].
        apply S3. right. exists v. auto. }
      split. { intros v -> _ _. do 2 eexists. reflexivity. }
      split.
      { intros id k K. split; [apply S3; left; exact K|]. apply S4. intros e ->. exact (inv_noflag c s _ I (F e) id K). }
      intros id k K NK. apply S3 in K. destruct K as [K|[v [-> [HR [-> _]]]]]; [exfalso; exact (NK k K)|].
      rewrite HR. eexists. reflexivity.
    + apply (IDLE RError); [|right; auto]. unfold step. rewrite L, Nat.eqb_refl. apply Nat.eqb_neq in N. rewrite N.
      cbn [orb negb]. unfold allocate. rewrite E. reflexivity.
  - apply (IDLE RFull); [|left; auto]. unfold step. rewrite L, Nat.eqb_refl. apply Nat.eqb_neq in N. rewrite N.
    cbn [orb negb]. unfold allocate. rewrite E. reflexivity.
Qed.

Lemma step_stable c s o id k : Inv c s -> proper c s o -> ~ names o id -> holds s id k ->
  holds (fst (step c s o)) id k /\ val (fst (step c s o)) k = val s k.
Proof.
  intros I PR NN K. destruct o as [m sub|i v|i|i|m ids a|m vs sub a|m a]; cbn [proper names] in PR, NN.
  - unfold step. apply Nat.eqb_neq in PR. rewrite PR. unfold allocate.
    destruct (next_slot c s m) as [p|] eqn:E; [|auto]. destruct sub; [|auto]. cbn [fst].
    destruct (new_ptrs_spec m p (nargs c m) 0 s) as [S1 [S2 [S3 S4]]]. fold (new_ptrs s m p (nargs c m)) in S1, S2, S3, S4.
    split; [apply S3; left; exact K|now rewrite S2].
  - destruct PR as [k' H]. unfold step. rewrite (write_ok s i k' v H). cbn [fst]. split; [exact K|].
    cbn [val]. apply set_neq. intros ->. apply NN. exact (inv_uniq c s I i id k' H K).
  - destruct PR as [ob [E D]]. unfold step. rewrite E, D. cbn [fst].
    destruct (move_inv c s i ob I E D) as [M _]. split; [|reflexivity]. apply M. left. split; [exact K|]. congruence.
  - destruct PR as [[k' own d] [E D]]. cbn [o_dead] in D. subst d. unfold step.
    destruct (drop_spec c s i k' own I E) as [s' [D1 [D2 [_ [_ [D5 _]]]]]]. rewrite D1. cbn [fst].
    split; [apply D5; split; [exact K|congruence]|now rewrite D2].
  - destruct PR as [N [L [p H]]]. rewrite step_call by assumption.
    destruct (call_proper_range c s m ids p I N L H) as [P FN].
    pose proof (call_spec c s m p ids a I N L H) as C. split.
    + apply (ca_holds _ _ _ _ _ _ _ _ C). left. auto.
    + apply (ca_val _ _ _ _ _ _ _ _ C). intros ->. exact (inv_noflag c s _ I FN id K).
  - destruct PR as [N L]. destruct (next_slot c s m) as [p|] eqn:E.
    + destruct sub.
      * destruct (callcopy_spec c s m vs a p I N L E) as [s' [S1 [S2 [S3 [S4 S5]]]]]. rewrite S1. cbn [fst].
        destruct (next_slot_some c s m p I E) as [P [F _]].
        split; [apply S3; left; exact K|]. apply S4. intros e ->. exact (inv_noflag c s _ I (F e) id K).
      * unfold step. rewrite L, Nat.eqb_refl. apply Nat.eqb_neq in N. rewrite N. cbn [orb negb].
        unfold allocate. rewrite E. auto.
    + unfold step. rewrite L, Nat.eqb_refl. apply Nat.eqb_neq in N. rewrite N. cbn [orb negb].
      unfold allocate. rewrite E. auto.
  - destruct PR as [N HR]. destruct (next_slot c s m) as [p|] eqn:E.
    + destruct (call0_spec c s m a p I N HR E) as [s' [S1 [S2 [S3 [S4 S5]]]]]. rewrite S1. cbn [fst].
      destruct (next_slot_some c s m p I E) as [P [F _]].
      split; [apply S3; left; exact K|]. apply S4. intros ->. exact (inv_noflag c s _ I (F None) id K).
    + unfold step. rewrite N, HR, E. auto.
Qed.

(** As long as the user does not use the pointer, it stays live and the value it designates stays the
    same, whatever calls are made meanwhile: a result is never overwritten by a later call while its
    pointer is held, and arguments prepared for a call are not changed. *)
Theorem C105_stable : forall c s s' id k, reach c s -> undisturbed c id s s' -> holds s id k ->
  holds s' id k /\ val s' k = val s k.
Proof.
  intros c s s' id k R U K.
  assert (G : reach c s' /\ holds s' id k /\ val s' k = val s k).
  { induction U as [s|s s' o U IH PR NN]; [auto|]. destruct (IH R K) as [R' [K' V]].
    destruct (step_stable c s' o id k (reach_inv c s' R') PR NN K') as [K2 V2].
    split; [constructor; assumption|]. split; [exact K2|congruence]. }
  exact (proj2 G).
Qed.

(** Once no live pointer to a method's slots is left, its queue is empty again. *)
Theorem C105_all_released : forall c s m sub, reach c s -> nargs c m <> 0 -> 0 < qsize c ->
  (forall id p e, ~ holds s id (m, p, e)) -> snd (step c s (Allocate m sub)) <> RFull.
Proof.
  intros c s m sub R N Q H F.
  rewrite (C105_full c s (Allocate m sub) m R N) in F by (left; exists sub; reflexivity).
  destruct (F 0 Q) as [id [e K]]. exact (H id 0 e K).
Qed.

(** Example: two methods, one with two arguments; a queue of one slot *)
Definition ex_cfg : cfg := mkCfg 1 (fun m => match m with 0 => 2 | 1 => 1 | _ => 0 end) (fun _ => true).
Definition steps (c : cfg) (l : list op) (s : st) : st := fold_left (fun s o => fst (step c s o)) l s.

Example ex_session :
  let s := steps ex_cfg [Allocate 0 true; Write 0 1; Write 1 2] init in
  let s2 := fst (step ex_cfg s (Call 0 [0; 1] (Ok 3))) in
  reach ex_cfg s /\ proper ex_cfg s (Call 0 [0; 1] (Ok 3)) /\
  snd (step ex_cfg s (Call 0 [0; 1] (Ok 3))) = RDone [1%N; 2%N] (Some 2) /\
  holds s2 2 (0, 0, None) /\ snd (step ex_cfg s2 (Allocate 0 true)) = RFull /\
  snd (step ex_cfg s2 (CallCopy 1 [7%N] true (Ok 8))) = RDone [7%N] (Some 4) /\
  snd (step ex_cfg (fst (step ex_cfg s2 (Drop 2))) (Allocate 0 true)) = RPtrs [3; 4].
Proof.
  cbn zeta. split.
  { unfold steps. cbn [fold_left]. apply reach_step; [apply reach_step; [apply reach_step; [constructor|]|]|].
    - cbn. discriminate.
    - exists (0, 0, Some 0). vm_compute. reflexivity.
    - exists (0, 0, Some 1). vm_compute. reflexivity. }
  split.
  { cbn. split; [discriminate|]. split; [reflexivity|]. exists 0. intros [|[|i]] id E.
    - injection E as <-. vm_compute. reflexivity.
    - injection E as <-. vm_compute. reflexivity.
    - destruct i; discriminate. }
  repeat split; vm_compute; reflexivity.
Qed.

(** The zero-copy call looks only at the queue positions of the pointers it is given, not at what they
    point to. Pointers to two arguments of the same type given in the other order: the call succeeds,
    and the handler is given the values in the order of the slot, not in the order of the call. *)
Theorem C105_order_refuted : exists c s m ids given ret,
  reach c s /\ (forall id, In id ids -> exists i, holds s id (m, 0, Some i)) /\ length ids = nargs c m /\
  snd (step c s (Call m ids (Ok 0))) = RDone given ret /\
  given <> map (fun id => match nth_error (objs s) id with Some o => val s (o_elt o) | None => 0%N end) ids.
Proof.
  exists ex_cfg, (steps ex_cfg [Allocate 0 true; Write 0 1; Write 1 2] init), 0, [1; 0], [1%N; 2%N], (Some 2).
  split. { exact (proj1 ex_session). }
  split.
  { intros id [<-|[<-|[]]]; [exists 1|exists 0]; vm_compute; reflexivity. }
  split; [reflexivity|]. split; vm_compute; [reflexivity|discriminate].
Qed.

(** Pointers to arguments and pointers to results are the same C++ type. The pointer to the result of
    one method given directly as the argument of another one is accepted: the handler is not given the
    result but what the argument slot of the called method happened to contain, and the result is
    released. *)
Theorem C105_result_as_argument_refuted : exists c s r v given ret,
  reach c s /\ holds s r (2, 0, None) /\ val s (2, 0, None) = v /\ nargs c 1 = 1 /\
  snd (step c s (Call 1 [r] (Ok 0))) = RDone given ret /\ given <> [v] /\
  snd (step c (fst (step c s (Call 1 [r] (Ok 0)))) (Call0 2 (Ok 5))) <> RFull.
Proof.
  exists ex_cfg, (steps ex_cfg [Call0 2 (Ok 42)] init), 0, 42%N, [0%N], (Some 1).
  split. { unfold steps. cbn [fold_left]. apply reach_step; [constructor|]. cbn. auto. }
  repeat split; vm_compute; try reflexivity; discriminate.
Qed.

(** Pointers that were already given to a call (moved from) are accepted again: the second call runs
    on the same slot and overwrites the result of the first one, which the caller still holds; both
    live result pointers refer to the same value, and destroying one of them makes the slot available
    although the other one is still held. *)
Theorem C105_reuse_refuted : exists c s ids r1 r2 v1 v2,
  reach c s /\ proper c s (Call 0 ids (Ok v1)) /\ v1 <> v2 /\
  let s1 := fst (step c s (Call 0 ids (Ok v1))) in
  let s2 := fst (step c s1 (Call 0 ids (Ok v2))) in
  let s3 := fst (step c s2 (Drop r2)) in
  holds s1 r1 (0, 0, None) /\ val s1 (0, 0, None) = v1 /\
  holds s2 r1 (0, 0, None) /\ holds s2 r2 (0, 0, None) /\ r1 <> r2 /\ val s2 (0, 0, None) = v2 /\
  holds s3 r1 (0, 0, None) /\ qsize c = 1 /\ exists l, snd (step c s3 (Allocate 0 true)) = RPtrs l.
Proof.
  exists ex_cfg, (steps ex_cfg [Allocate 0 true; Write 0 1; Write 1 2] init), [0; 1], 2, 3, 10%N, 20%N.
  split; [exact (proj1 ex_session)|]. split.
  { exact (proj1 (proj2 ex_session)). }
  split; [discriminate|]. cbn zeta.
  repeat split; try (vm_compute; reflexivity); try discriminate.
  eexists. vm_compute. reflexivity.
Qed.

Print Assumptions C105_exclusive.
Print Assumptions C105_result_not_shared.
Print Assumptions C105_full.
Print Assumptions C105_allocate.
Print Assumptions C105_call.
Print Assumptions C105_call_copy.
Print Assumptions C105_stable.
Print Assumptions C105_all_released.
Print Assumptions C105_order_refuted.
Print Assumptions C105_result_as_argument_refuted.
Print Assumptions C105_reuse_refuted.
