(** C114: messages of a QNX server reach the client. *)
From Verif Require Import QxModel QxSpec QxProof.
From Coq Require Import Permutation.

(** ** What holds in every execution *)
(** Messages with content arrive in the order in which they were accepted, each at most once and unchanged. *)
Theorem C114_content_in_order : forall c s, reach c anything s ->
  exists rest, filter with_content (got s) ++ rest = filter with_content (acc s).
Proof. intros c s R. eexists. apply (i_body _ _ (inv_reach _ _ _ R)). Qed.

(** Nothing is invented: what the client got, counted with repetitions, was accepted. *)
Theorem C114_nothing_invented : forall c s, reach c anything s -> exists rest, Permutation (got s ++ rest) (acc s).
Proof. intros c s R. eexists. apply (i_all _ _ (inv_reach _ _ _ R)). Qed.

(** What was accepted and not received still waits: in the queue, or as a pulse. *)
Theorem C114_nothing_dropped : forall c s, reach c anything s -> queue s = [] -> pulses s = [] -> Permutation (got s) (acc s).
Proof.
  intros c s R Q P. pose proof (i_all _ _ (inv_reach _ _ _ R)) as H. rewrite Q, P in H. cbn in H.
  unfold conts_of, pings in H. cbn in H. rewrite app_nil_r in H. exact H.
Qed.

(** The answer of Notify: too long, no buffer free because all of them hold notifications the client has not read, or
    accepted. *)
Theorem C114_notify_answer : forall c s bs s', reach c anything s -> step c s (LNotify bs) = Some s' ->
  ans s' = Some (if max_notify c <? length bs then EMSGSIZE
                 else if empty bs && registered s then AOk
                 else if notifies (queue s) =? buffers c then ENOBUFS else AOk) /\
  (ans s' = Some AOk -> acc s' = acc s ++ [MNotify bs]) /\ (ans s' <> Some AOk -> acc s' = acc s /\ queue s' = queue s).
Proof.
  intros c s bs s' R H. pose proof (i_pool _ _ (inv_reach _ _ _ R)) as P.
  unfold step in H. destruct (ub s); [discriminate|]. injection H as <-. unfold notify.
  destruct (max_notify c <? length bs); [cbn; repeat split; auto; discriminate|].
  destruct (empty bs && registered s) eqn:E; [cbn; repeat split; auto; congruence|].
  destruct (pool s) as [|p] eqn:PL.
  - destruct (Nat.eqb_spec (notifies (queue s)) (buffers c)); [|lia]. cbn. repeat split; auto; discriminate.
  - destruct (Nat.eqb_spec (notifies (queue s)) (buffers c)); [lia|]. cbn. repeat split; auto; congruence.
Qed.

(** No message longer than configured is received. *)
Theorem C114_sizes : forall c s m, reach c anything s -> In m (got s) ->
  match m with MReply bs => length bs <= max_reply c | MNotify bs => length bs <= max_notify c end.
Proof. intros c s m R H. pose proof (i_sizes _ _ (inv_reach _ _ _ R) m H) as S. destruct m; exact S. Qed.

(** ** What holds with care *)
(** Once the client is registered and has handled its pulses, it has every accepted message. Missing: the case that more
    than one message was sent before the client had registered. *)
Theorem C114_everything_arrives_partial : forall c s, reach c one_early s -> regd s = RDone -> pulses s = [] ->
  queue s = [] /\ Permutation (got s) (acc s).
Proof.
  intros c s R D P. pose proof (enough_reach c s R) as E. unfold enough in E. rewrite D, P in E. cbn in E.
  assert (Q : queue s = []) by (destruct (queue s); [reflexivity|unfold news in E; cbn in E; lia]). split; [exact Q|].
  pose proof (i_all _ _ (inv_reach _ _ _ R)) as H. rewrite Q, P in H.
  unfold conts_of, pings in H. cbn in H. rewrite app_nil_r in H. exact H.
Qed.

(** If nothing is sent before the client has registered, all messages, empty ones included, arrive in order. *)
Theorem C114_order_partial : forall c s, reach c none_early s -> exists rest, got s ++ rest = acc s.
Proof. intros c s R. destruct (order_reach c s R) as (_ & _ & O). eexists. exact O. Qed.

(** With a server that answers each request once, a client that waits for the answer before it asks again, and a buffer
    in the client for the longest message of the server, there is no undefined behaviour. *)
Theorem C114_no_undefined_behaviour_partial : forall c s, fits c -> reach c polite s -> ub s = false.
Proof. intros c s F R. exact (p_ub _ (pol_reach c s F R)). Qed.

(** ** What does not hold *)
Definition c0 : cfg := mkCfg 16 16 4 17.
(** Two notifications sent before the client has registered for pulses, for instance by the connect callback, raise one
    pulse together. The client reads one message per pulse: the second stays in the server, with nothing to wake the
    client. *)
Definition two_early : list label := [LNotify [1%Z]; LNotify [2%Z]; LRegSet; LRegCheck; LHandle].
Theorem C114_stuck_notification_refuted : exists s, run c0 (init c0) two_early = Some s /\ regd s = RDone /\ pulses s = [] /\
  acc s = [MNotify [1%Z]; MNotify [2%Z]] /\ got s = [MNotify [1%Z]] /\ step c0 s LHandle = None /\
  (* and each later notification only brings the one before it *)
  (exists s', run c0 s [LNotify [3%Z]; LHandle] = Some s' /\ got s' = [MNotify [1%Z]; MNotify [2%Z]] /\ pulses s' = []).
Proof.
  eexists. split; [vm_compute; reflexivity|]. repeat (split; [reflexivity|]). eexists. split; [vm_compute; reflexivity|]. split; reflexivity.
Qed.

(** For the same reason the reply to an early request can stay unread behind an early notification: the client waits
    for it in vain. *)
Definition early_request : list label := [LNotify [1%Z]; LAsk; LReply [9%Z]; LRegSet; LRegCheck; LHandle].
Theorem C114_stuck_reply_refuted : exists s, run c0 (init c0) early_request = Some s /\ regd s = RDone /\ pulses s = [] /\
  In (MReply [9%Z]) (acc s) /\ ~ In (MReply [9%Z]) (got s) /\ step c0 s LHandle = None.
Proof.
  eexists. split; [vm_compute; reflexivity|]. cbn. repeat split; auto. intros [X|[]]. discriminate.
Qed.

(** Empty notifications do not go through the queue: one overtakes a message sent before it around the registration. *)
Definition overtaking : list label := [LNotify [1%Z]; LRegSet; LNotify []; LRegCheck; LHandle; LHandle].
Theorem C114_order_refuted : exists s, run c0 (init c0) overtaking = Some s /\
  acc s = [MNotify [1%Z]; MNotify []] /\ got s = [MNotify []; MNotify [1%Z]].
Proof. eexists. split; [vm_compute; reflexivity|]. split; reflexivity. Qed.

(** A client that sends a second request before it has read the reply to the first makes a server that answers every
    request once put its only reply buffer into the queue twice. *)
Definition second_request : list label := [LRegSet; LRegCheck; LAsk; LReply [1%Z]; LAsk; LReply [2%Z]].
Theorem C114_second_request_refuted : exists s, run c0 (init c0) second_request = Some s /\ ub s = true /\ replies (acc s) <= asked s.
Proof. eexists. split; [vm_compute; reflexivity|]. split; [reflexivity|]. vm_compute. lia. Qed.

Definition c1 : cfg := mkCfg 16 16 4 9.
(** The server does not look at the size of the client's buffer, and the client does not compare what it got with it: a
    server configured for longer messages than the client makes the client read beyond its buffer. *)
Definition long_message : list label := [LRegSet; LRegCheck; LNotify (repeat 7%Z 16); LHandle].
Theorem C114_long_message_refuted : exists s, run c1 (init c1) long_message = Some s /\ ub s = true.
Proof. eexists. split; [vm_compute; reflexivity|reflexivity]. Qed.

(** ** Size fields *)
(** The message given to the user lies in what was received, if the header itself was received completely. *)
Theorem C114_write_within_partial : forall hdr msglen offset nbytes n,
  (0 < hdr -> 0 <= offset -> offset + hdr <= msglen -> msglen < W64 ->
   write_size hdr msglen offset nbytes = Some n -> 0 <= n /\ offset + hdr + 1 + n <= msglen)%Z.
Proof.
  unfold write_size. intros hdr m o k n H O L M. destruct (Z.ltb_spec k 1); [discriminate|].
  rewrite Z.mod_small by lia. destruct (Z.ltb_spec (m - o - hdr) k); [discriminate|]. intros [= <-]. lia.
Qed.
(** And what the client has sent is not refused if it was received completely. *)
Theorem C114_write_accepted : forall hdr msglen offset nbytes,
  (0 < hdr -> 0 <= offset -> 1 <= nbytes -> offset + hdr + nbytes <= msglen -> msglen < W64 ->
   write_size hdr msglen offset nbytes = Some (nbytes - 1))%Z.
Proof.
  unfold write_size. intros hdr m o k H O K L M. destruct (Z.ltb_spec k 1); [lia|].
  rewrite Z.mod_small by lia. destruct (Z.ltb_spec (m - o - hdr) k); [lia|reflexivity].
Qed.
(** The check is unsigned: with less than a header received (which the resource manager library would have to let
    through) every size passes. *)
Theorem C114_write_underflow_refuted : exists hdr msglen offset nbytes n,
  (0 < hdr /\ 0 <= offset /\ offset < msglen /\ write_size hdr msglen offset nbytes = Some n /\ msglen < n)%Z.
Proof. exists 16%Z, 20%Z, 8%Z, 1000%Z, 999%Z. vm_compute. repeat split; congruence. Qed.

(** ** Pulses of several connections of a client *)
Theorem C114_pulse_value_exact : forall i g n, (0 <= i < W32 -> 0 <= g < W16 -> 0 <= n < W16 -> unpack (pack i g n) = (i, g, n))%Z.
Proof. exact unpack_pack. Qed.

(** A pulse wakes the connection it was meant for, or none, unless the place of that connection in the table has been
    given to others 65536 times (or a multiple) since. *)
Theorem C114_pulse_home_partial : forall s e ping m i k, preach s -> In (e, ping, m, i, k) (calls s) ->
  e = m \/ (exists j, 0 < j /\ Z.of_nat k = j * W16)%Z.
Proof. intros s e ping m i k R. exact (pi_calls _ (pinv_reach s R) e ping m i k). Qed.

(** The number that tells connections in one place apart has 16 bits: after 65536 new connections in the place, an old
    ping still in the channel becomes a notification of a connection that has not sent it. *)
Theorem C114_stale_ping_refuted : exists n s, prun pinit (PReg 1 :: PSend 0 true :: cycles n ++ [PHandle]) = Some s /\
  calls s = [(2%nat, true, 1%nat, 0%nat, n)].
Proof.
  assert (N : exists n : nat, (0 < n)%nat /\ (Z.of_nat n mod W16 = 0)%Z).
  { exists (Z.to_nat W16). rewrite Z2Nat.id by (unfold W16; lia). unfold W16. split; [lia|reflexivity]. }
  destruct N as (n & P & M). exists n. cbn [prun].
  replace (pstep pinit (PReg 1)) with (Some (mkPst [mkSlot (Some 1%nat) (Z.of_nat 0 mod W16) 0] [] [])) by reflexivity.
  replace (pstep _ (PSend 0 true)) with (Some (mkPst [mkSlot (Some 1%nat) (Z.of_nat 0 mod W16) 0] [mkSp (pack 0 1 0) 1 0 0] [])) by reflexivity.
  rewrite prun_app, cycles_run by exact P. cbn [prun].
  replace (0 + n) with n by lia. rewrite M.
  unfold pstep. cbn [sent sp_val]. rewrite unpack_pack by (unfold W32, W16; lia). cbn.
  rewrite Nat.sub_0_r. eexists. split; reflexivity.
Qed.

(** ** The hypotheses are met *)
Fixpoint all_ok (c : cfg) (ok : st -> label -> Prop) (s : st) (ls : list label) : Prop :=
  match ls with
  | [] => True
  | l :: ls => ok s l /\ match step c s l with Some s' => all_ok c ok s' ls | None => True end
  end.
Lemma reach_run c (ok : st -> label -> Prop) ls : forall s s', reach c ok s -> run c s ls = Some s' -> all_ok c ok s ls -> reach c ok s'.
Proof.
  induction ls as [|l ls IH]; intros s s' R H O; [injection H as <-; exact R|].
  cbn in H, O. destruct O as [O1 O2]. destruct (step c s l) as [u|] eqn:E; [|discriminate]. apply (IH u); auto.
  eapply r_step; eauto.
Qed.

Definition plain : list label :=
  [LRegSet; LRegCheck; LNotify [1%Z; 2%Z]; LNotify []; LAsk; LReply [3%Z]; LHandle; LNotify [4%Z]; LHandle; LHandle; LHandle; LAsk; LReply []; LHandle].
Example C114_plain : exists s, run c0 (init c0) plain = Some s /\
  reach c0 polite s /\ reach c0 one_early s /\ reach c0 none_early s /\ reach c0 anything s /\ fits c0 /\ regd s = RDone /\ pulses s = [] /\
  got s = [MNotify [1%Z; 2%Z]; MNotify []; MReply [3%Z]; MNotify [4%Z]; MReply []].
Proof.
  eexists. split; [vm_compute; reflexivity|].
  split; [eapply (reach_run c0 polite plain (init c0)); [apply r_init|vm_compute; reflexivity|vm_compute; repeat split; lia]|].
  split; [eapply (reach_run c0 one_early plain (init c0)); [apply r_init|vm_compute; reflexivity|vm_compute; repeat split; discriminate]|].
  split; [eapply (reach_run c0 none_early plain (init c0)); [apply r_init|vm_compute; reflexivity|vm_compute; repeat split]|].
  split; [eapply (reach_run c0 anything plain (init c0)); [apply r_init|vm_compute; reflexivity|vm_compute; repeat split]|].
  split; [unfold fits; cbn; lia|]. repeat split.
Qed.
Example C114_one_early_met : exists s, reach c0 one_early s /\ regd s = RDone /\ got s = [MNotify [5%Z]].
Proof.
  eexists. split.
  - eapply (reach_run c0 one_early [LNotify [5%Z]; LRegSet; LRegCheck; LHandle] (init c0)); [apply r_init|vm_compute; reflexivity|vm_compute; repeat split; auto].
  - split; reflexivity.
Qed.
Example C114_sizes_met : write_size 16 64 0 48 = Some 47%Z /\ write_size 16 64 0 49 = None /\ write_size 16 64 8 41 = None.
Proof. repeat split; reflexivity. Qed.
Lemma preach_run ls : forall s s', preach s -> prun s ls = Some s' -> preach s'.
Proof.
  induction ls as [|l ls IH]; intros s s' R H; [injection H as <-; exact R|].
  cbn in H. destruct (pstep s l) as [u|] eqn:E; [|discriminate]. apply (IH u); auto. eapply p_step; eauto.
Qed.
Example C114_pulse_met : exists s, preach s /\ calls s = [(3%nat, false, 3%nat, 1%nat, 0%nat)].
Proof.
  eexists. split.
  - eapply (preach_run [PReg 1; PReg 3; PSend 0 true; PSend 1 false; PUnreg 0; PHandle; PHandle] pinit); [apply p_init|vm_compute; reflexivity].
  - reflexivity.
Qed.

Print Assumptions C114_content_in_order.
Print Assumptions C114_nothing_invented.
Print Assumptions C114_nothing_dropped.
Print Assumptions C114_notify_answer.
Print Assumptions C114_sizes.
Print Assumptions C114_everything_arrives_partial.
Print Assumptions C114_order_partial.
Print Assumptions C114_no_undefined_behaviour_partial.
Print Assumptions C114_stuck_notification_refuted.
Print Assumptions C114_stuck_reply_refuted.
Print Assumptions C114_order_refuted.
Print Assumptions C114_second_request_refuted.
Print Assumptions C114_long_message_refuted.
Print Assumptions C114_write_within_partial.
Print Assumptions C114_write_accepted.
Print Assumptions C114_write_underflow_refuted.
Print Assumptions C114_pulse_value_exact.
Print Assumptions C114_pulse_home_partial.
Print Assumptions C114_stale_ping_refuted.
Print Assumptions C114_plain.
