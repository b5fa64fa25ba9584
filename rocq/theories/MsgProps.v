(** C83: messages between processes are understood as meant, and received bytes are harmless. *)
From Verif Require Import Base MsgModel.
Local Open Scope N_scope.

(** ** Specification vocabulary *)
(** Values the identifiers of the API can have: unsigned integers of 8, 16, 32 or 64 bits. *)
Definition u (w : nat) (v : N) : Prop := v < 2 ^ (8 * N.of_nat w).
Definition fqid_ok (f : fqid) := u 2 (f_service f) /\ u 2 (f_element f) /\ u 2 (f_instance f) /\ u 1 (f_type f).
Definition skid_ok (k : skid) := u 2 (sk_service k) /\ u 2 (sk_instance k).
Definition pxid_ok (p : pxid) := u 4 (px_app p) /\ u 2 (px_ctr p).
Definition note_ok (n : note) : Prop :=
  match n with Register e | Unregister e | Update e => fqid_ok e | Outdated p => u 4 p end.
Definition request_ok (r : request) : Prop :=
  match r with
  | SubscribeMethods k p | UnsubscribeMethods k p => skid_ok k /\ pxid_ok p
  | CallMethod m pos => pxid_ok (pm_px m) /\ u 2 (pm_id m) /\ u 1 (pm_type m) /\ u 8 pos
  end.

(** ** Little-endian integers *)
Lemma le_length w v : length (le w v) = w.
Proof. revert v; induction w as [|w IH]; intros v; cbn [le length]; [reflexivity|rewrite IH; reflexivity]. Qed.

Lemma pow_S w : 2 ^ (8 * N.of_nat (S w)) = 256 * 2 ^ (8 * N.of_nat w).
Proof.
  replace (8 * N.of_nat (S w)) with (8 + 8 * N.of_nat w) by lia.
  rewrite N.pow_add_r. reflexivity.
Qed.

Lemma unle_le w v : u w v -> unle (le w v) = v.
Proof.
  unfold u; revert v; induction w as [|w IH]; intros v H; cbn [le unle].
  - change (2 ^ (8 * N.of_nat 0)) with 1 in H. lia.
  - rewrite pow_S in H. rewrite IH.
    + pose proof (N.div_mod v 256 ltac:(lia)). lia.
    + apply N.div_lt_upper_bound; lia.
Qed.

Ltac bounds :=
  unfold u in *; cbn in *;
  repeat match goal with |- context [N.of_nat ?x] => change (N.of_nat x) with (N.of_nat x) end.

(** a field of a message *)
Lemma part_le pre w v post : u w v -> part (pre ++ le w v ++ post) (length pre) w = v.
Proof.
  intros H. unfold part.
  rewrite skipn_app, skipn_all, Nat.sub_diag. cbn [app skipn].
  rewrite firstn_app, le_length, Nat.sub_diag, firstn_O, app_nil_r.
  replace w with (length (le w v)) at 1 by apply le_length. rewrite firstn_all.
  apply unle_le; assumption.
Qed.

Lemma part_at b o w v pre post : b = pre ++ le w v ++ post -> length pre = o -> u w v -> part b o w = v.
Proof. intros -> <- H. apply part_le; assumption. Qed.

Ltac field P := 
  eapply (part_at _ _ _ _ P); [cbn [app le]; reflexivity|reflexivity|assumption].

Lemma fqid_back pad e : fqid_ok e -> r_fqid (w_fqid pad e) = e.
Proof.
  destruct e as [a b c d]; intros (Ha & Hb & Hc & Hd); cbn [f_service f_element f_instance f_type] in *.
  unfold r_fqid, w_fqid; cbn [f_service f_element f_instance f_type].
  f_equal.
  - field (@nil N).
  - field (le 2 a).
  - field (le 2 a ++ le 2 b).
  - field (le 2 a ++ le 2 b ++ le 2 c).
Qed.

Lemma skpx_back pad k p : skid_ok k -> pxid_ok p ->
  r_skid (w_skid k ++ w_pxid pad p) 0 = k /\ r_pxid (w_skid k ++ w_pxid pad p) 4 = p.
Proof.
  destruct k as [a b], p as [c d]; intros (Ha & Hb) (Hc & Hd); cbn [sk_service sk_instance px_app px_ctr] in *.
  unfold r_skid, r_pxid, w_skid, w_pxid; cbn [sk_service sk_instance px_app px_ctr Nat.add].
  split; f_equal.
  - field (@nil N).
  - field (le 2 a).
  - field (le 2 a ++ le 2 b).
  - field (le 2 a ++ le 2 b ++ le 4 c).
Qed.

(** ** C83: what is sent is what is understood, whatever the padding bytes contain *)
Theorem C83_notes_are_understood : forall pad n, note_ok n -> read_note (write_note pad n) = Some n.
Proof.
  intros pad [e|e|e|p] H; cbn [note_ok] in H; unfold read_note, write_note.
  1-3: change (length (w_fqid pad e)) with 8%nat; cbn [N.eqb Pos.eqb]; unfold sized;
       change (length (w_fqid pad e) =? 8)%nat with true; cbn [option_map]; rewrite fqid_back by assumption; reflexivity.
  cbn [N.eqb Pos.eqb]; unfold sized. change (length (le 4 p) =? 4)%nat with true; cbn [option_map].
  do 2 f_equal. eapply (part_at _ _ _ _ (@nil N)); [rewrite app_nil_l, app_nil_r; reflexivity|reflexivity|assumption].
Qed.

Theorem C83_requests_are_understood : forall pad r, request_ok r -> read_request (write_request pad r) = inl r.
Proof.
  intros pad [k p|m pos|k p] H; cbn [request_ok] in H; unfold read_request, write_request; cbn [N.eqb Pos.eqb]; unfold sized.
  - change (length (w_skid k ++ w_pxid pad p) =? 12)%nat with true. destruct H as (H1 & H2).
    destruct (skpx_back pad k p H1 H2) as (-> & ->). reflexivity.
  - match goal with |- context [(?a =? 24)%nat] => change (a =? 24)%nat with true end.
    destruct m as [[c d] i t]; cbn [pm_px pm_id pm_type] in H. destruct H as ((Hc & Hd) & Hi & Ht & Hp); cbn [px_app px_ctr] in *.
    unfold r_pmid, r_pxid, w_pmid, w_pxid; cbn [pm_px pm_id pm_type px_app px_ctr Nat.add]. cbv iota.
    do 2 f_equal; [f_equal; [f_equal| |]|].
    + field (@nil N).
    + field (le 4 c).
    + field (le 4 c ++ le 2 d ++ [pad 1%nat; pad 2%nat]).
    + field (le 4 c ++ le 2 d ++ [pad 1%nat; pad 2%nat] ++ le 2 i).
    + eapply (part_at _ _ _ _ (le 4 c ++ le 2 d ++ [pad 1%nat; pad 2%nat] ++ le 2 i ++ le 1 t ++ [pad 3%nat; pad 4%nat; pad 5%nat; pad 6%nat; pad 7%nat]) []);
        [rewrite app_nil_r; cbn [app le]; reflexivity|reflexivity|assumption].
  - change (length (w_skid k ++ w_pxid pad p) =? 12)%nat with true. destruct H as (H1 & H2).
    destruct (skpx_back pad k p H1 H2) as (-> & ->). reflexivity.
Qed.

(** every message fits the 32 bytes the connections are created for *)
Theorem C83_messages_fit : forall pad n r,
  (length (write_note pad n) <= 32)%nat /\ (length (write_request pad r) <= 32)%nat.
Proof.
  intros pad n r. split.
  - destruct n; cbn [write_note length]; unfold w_fqid; rewrite ?app_length, ?le_length; cbn [length]; lia.
  - destruct r; cbn [write_request length]; unfold w_pmid, w_pxid, w_skid; rewrite ?app_length, ?le_length; cbn [length]; lia.
Qed.

(** ** Requests: the answer *)
(** What the consumer of a method is told, in terms of what its request met *)
Definition told_reason (r : request) (h : handler) (v : verdict) : Prop :=
  match r, h with
  | UnsubscribeMethods _ _, _ => v = VOk
  | _, Runs => v = VOk
  | CallMethod _ _, CannotOpen => v = VOk
  | SubscribeMethods _ _, NoHandler => v = VError eNotOffered
  | CallMethod _ _, NoHandler => v = VError eNotSubscribed
  | _, NotAllowed => v = VError eUnknownProxy
  | _, ScopeGone => v = VError eSkeletonDestroyed
  | SubscribeMethods _ _, CannotOpen => exists c, v = VError c
  end.

Theorem C83_caller_learns_the_outcome : forall pad r h, request_ok r -> told_reason r h (ask true true pad r h).
Proof.
  intros pad r h H. unfold ask, handle_request. cbn [negb]. rewrite C83_requests_are_understood by assumption.
  destruct r as [k p|m pos|k p], h; vm_compute; try reflexivity. eexists; reflexivity.
Qed.

(** no bytes, well-formed or not, terminate a process whose messaging is up *)
Theorem C83_requests_do_not_terminate : forall sent b h, handle_request true sent b h <> Died.
Proof.
  intros sent b h. unfold handle_request; cbn [negb].
  assert (E : forall c, In c [1; 2; 3; 5; 6; 7]%Z ->
    match recoverable c with None => Died | Some ok => match write_reply (Some c) with None => Died | Some w => if sent then Replied w ok else NotReplied end end <> Died).
  { intros c Hc; cbn [In] in Hc. repeat destruct Hc as [<-|Hc]; try contradiction; destruct sent; vm_compute; discriminate. }
  destruct (read_request b) as [r|e] eqn:R.
  - destruct r as [k p|m pos|k p], h; cbn [handled]; first [apply E; cbn; tauto | destruct sent; vm_compute; discriminate].
  - apply E. unfold read_request in R. destruct b as [|t p]; [injection R as <-; cbn; tauto|].
    unfold sized in R.
    repeat match type of R with context [if ?x then _ else _] => destruct x end; try discriminate; injection R as <-; cbn; tauto.
Qed.

(** full claim: the provider's connection to a consumer survives every well-formed request, and
    malformed bytes end it *)
Definition well_formed (b : list byte) : Prop := exists r, read_request b = inl r.

Theorem C83_connection_kept_partial : forall b h w keep,
  handle_request true true b h = Replied w keep ->
  (keep = true <-> well_formed b /\ ~ ((exists k p, read_request b = inl (SubscribeMethods k p)) /\ h = CannotOpen)).
Proof.
  intros b h w keep H. unfold handle_request in H; cbn [negb] in H. unfold well_formed.
  destruct (read_request b) as [r|e] eqn:R.
  - destruct r as [k p|m pos|k p], h; cbn [handled] in H; vm_compute in H; injection H as <- <-;
      (split; [intros E; split; [eexists; reflexivity|intros ((k' & p' & E') & E2); discriminate]|]);
      try reflexivity; intros (_ & N); exfalso; apply N; split; [eexists; eexists; reflexivity|reflexivity].
  - assert (Hc : e = 2%Z \/ e = 3%Z).
    { unfold read_request in R. destruct b as [|t p]; [injection R as <-; tauto|]. unfold sized in R.
      repeat match type of R with context [if ?x then _ else _] => destruct x end; try discriminate; injection R as <-; tauto. }
    destruct Hc as [-> | ->]; vm_compute in H; injection H as <- <-; split; try discriminate; intros ((r & E) & _); discriminate.
Qed.

(** FALSE: the reply tells why it failed.  A provider that cannot open the consumer's memory
    (ComErrc::kBindingFailure = 3) answers with the number of MethodErrc::kUnexpectedMessageSize and
    drops the connection of a consumer whose message was in order. *)
Theorem C83_reason_refuted : exists pad r, request_ok r /\
  (exists w, handle_request true true (write_request pad r) CannotOpen = Replied w false /\
             read_reply (Some w) = VError eUnexpectedSize).
Proof.
  exists (fun _ => 0), (SubscribeMethods (mkSk 1 2) (mkPx 3 4)). split; [vm_compute; tauto|].
  exists [3; 0; 0; 0]. split; vm_compute; reflexivity.
Qed.

(** FALSE: requests never terminate the process.  While the messaging is being torn down (its scope
    has expired, the server still listens), any request, even a well-formed one, does. *)
Theorem C83_request_during_teardown_refuted : forall b h, handle_request false true b h = Died.
Proof. reflexivity. Qed.

(** ** Replies: what the caller does with any bytes *)
Theorem C83_reply_terminates_caller : forall b,
  read_reply (Some b) = VAbort <-> length b = 4%nat /\ ~ (0 <= n2z (unle b) < 8)%Z.
Proof.
  intros b. unfold read_reply, ErrorCodeModel.deserialize, ErrorCodeModel.k_invalid, ErrorCodeModel.num_elements.
  set (z := n2z (unle b)). clearbody z.
  destruct (4 <? length b)%nat eqn:L; [split; [discriminate|lia]|].
  destruct (length b =? 4)%nat eqn:L2; cbn [negb]; [|split; [discriminate|lia]].
  destruct ((0 <=? z)%Z && (z <? 8)%Z) eqn:Z1; [split; [|lia]|split; [lia|reflexivity]].
  destruct (negb (z =? 0)%Z); discriminate.
Qed.

(** every 32-bit error code survives the reply's four bytes *)
Theorem C83_codes_survive : forall z, (-2147483648 <= z < 2147483648)%Z -> n2z (unle (le 4 (z2n z))) = z.
Proof.
  intros z H.
  assert (B : (0 <= z mod 4294967296 < 4294967296)%Z) by (apply Z.mod_pos_bound; lia).
  rewrite unle_le.
  - unfold n2z, z2n. rewrite Z2N.id by lia. destruct (Z.ltb_spec z 0).
    + replace (z mod 4294967296)%Z with (z + 4294967296)%Z; [destruct (Z.ltb_spec (z + 4294967296) 2147483648); lia|].
      rewrite <- (Z.mod_small (z + 4294967296) 4294967296) by lia. rewrite <- (Z.mod_add z 1) by lia. f_equal; lia.
    + rewrite Z.mod_small by lia. destruct (Z.ltb_spec z 2147483648); lia.
  - unfold u, z2n. change (2 ^ (8 * N.of_nat 4)) with 4294967296. lia.
Qed.

(** FALSE: no reply terminates the caller *)
Theorem C83_reply_refuted : exists b, Forall (fun x => x < 256) b /\ (length b <= 32)%nat /\ read_reply (Some b) = VAbort.
Proof. exists [8; 0; 0; 0]. split; [repeat constructor|]. split; [cbn; lia|reflexivity]. Qed.

(** a caller is never terminated by a process that follows the protocol *)
Theorem C83_caller_safe : forall alive sent b h,
  match handle_request alive sent b h with
  | Replied w _ => read_reply (Some w) <> VAbort
  | NotReplied | Died => read_reply None <> VAbort
  end.
Proof.
  intros alive sent b h. unfold handle_request.
  destruct alive; cbn [negb]; [|destruct sent; discriminate].
  set (res := match read_request b with inl r => handled r h | inr e => Some e end). clearbody res.
  destruct (match res with Some c => recoverable c | None => Some true end) eqn:E; [|discriminate].
  destruct res as [c|]; [|destruct sent; vm_compute; discriminate].
  unfold recoverable in E.
  assert (In c [1; 2; 3; 4; 5; 6; 7]%Z).
  { unfold eSkeletonDestroyed, eUnknownProxy, eNotSubscribed, eNotOffered, eUnexpectedMessage, eUnexpectedSize, eMessagePassing in E.
    cbn [In]. destruct (_ || _) eqn:A in E; [lia|]. destruct (_ || _) eqn:B in E; [lia|discriminate]. }
  cbn [In] in H. repeat destruct H as [<-|H]; try contradiction; destruct sent; vm_compute; discriminate.
Qed.

(** ** Notifications: whom a message can affect *)
Lemma ekey_eqb_spec a b : ekey_eqb a b = true <-> a = b.
Proof.
  destruct a as [[x y] z], b as [[x' y'] z']; cbn [ekey_eqb].
  rewrite !andb_true_iff, !N.eqb_eq. split; [intros ((-> & ->) & ->); reflexivity|intros E; injection E as -> -> ->; auto].
Qed.

Section Notes.
Variable pids : list N.

(** full claim: a message of one process changes nobody else's registrations *)
Theorem C83_others_registrations_kept_partial : forall s sender b closes s' fx k q,
  handle_note pids s sender b closes = Fine s' fx ->
  q <> sender -> read_note b <> Some (Outdated q) -> nodes s' k q = nodes s k q.
Proof.
  intros s sender b closes s' fx k q H Hq Ho. unfold handle_note in H.
  destruct (read_note b) as [[e|e|e|p]|]; [..|injection H as <- <-; reflexivity].
  - injection H as <- <-.
    assert (nodes (set_nodes s (key_of e) (nupd (nodes s (key_of e)) sender true)) k q = nodes s k q).
    { unfold set_nodes, eupd, nupd; cbn [nodes]. destruct (ekey_eqb k (key_of e)) eqn:E; [|reflexivity].
      apply ekey_eqb_spec in E as ->. destruct (q =? sender) eqn:E2; [apply N.eqb_eq in E2; contradiction|reflexivity]. }
    destruct (_ && _); [|assumption]. unfold tell. destruct (told _ _); assumption.
  - injection H as <- <-.
    assert (nodes (set_nodes s (key_of e) (nupd (nodes s (key_of e)) sender false)) k q = nodes s k q).
    { unfold set_nodes, eupd, nupd; cbn [nodes]. destruct (ekey_eqb k (key_of e)) eqn:E; [|reflexivity].
      apply ekey_eqb_spec in E as ->. destruct (q =? sender) eqn:E2; [apply N.eqb_eq in E2; contradiction|reflexivity]. }
    destruct (_ && _); [|assumption]. unfold tell. destruct (told _ _); assumption.
  - injection H as <- <-; reflexivity.
  - destruct (_ && _); [discriminate|]. injection H as <- <-; cbn [nodes]. unfold nupd.
    destruct (q =? p) eqn:E; [apply N.eqb_eq in E; congruence|reflexivity].
Qed.

(** the sender's registration afterwards: exactly what it asked for *)
Theorem C83_own_registration : forall s sender b closes s' fx k,
  handle_note pids s sender b closes = Fine s' fx ->
  nodes s' k sender =
    match read_note b with
    | Some (Register e) => if ekey_eqb k (key_of e) then true else nodes s k sender
    | Some (Unregister e) => if ekey_eqb k (key_of e) then false else nodes s k sender
    | Some (Outdated p) => if sender =? p then false else nodes s k sender
    | _ => nodes s k sender
    end.
Proof.
  intros s sender b closes s' fx k H. unfold handle_note in H.
  destruct (read_note b) as [[e|e|e|p]|]; [..|injection H as <- <-; reflexivity].
  - injection H as <- <-.
    assert (T : forall x kk bb, nodes (tell x kk bb) = nodes x) by (intros; unfold tell; destruct (told _ _); reflexivity).
    match goal with |- nodes (if ?c then _ else _) _ _ = _ => destruct c end; rewrite ?T;
      unfold set_nodes, eupd, nupd; cbn [nodes]; destruct (ekey_eqb k (key_of e)); try reflexivity; rewrite N.eqb_refl; reflexivity.
  - injection H as <- <-.
    assert (T : forall x kk bb, nodes (tell x kk bb) = nodes x) by (intros; unfold tell; destruct (told _ _); reflexivity).
    match goal with |- nodes (if ?c then _ else _) _ _ = _ => destruct c end; rewrite ?T;
      unfold set_nodes, eupd, nupd; cbn [nodes]; destruct (ekey_eqb k (key_of e)); try reflexivity; rewrite N.eqb_refl; reflexivity.
  - injection H as <- <-; reflexivity.
  - destruct (_ && _); [discriminate|]. injection H as <- <-. reflexivity.
Qed.

(** which bytes make receive handlers run, and which: exactly a well-formed update message for an
    event with a registered handler in this process *)
Theorem C83_handlers_called : forall s sender b closes s' fx,
  handle_note pids s sender b closes = Fine s' fx ->
  forall k, In (HandlersCalled k) fx <-> exists e, read_note b = Some (Update e) /\ key_of e = k /\ here s k = true.
Proof.
  intros s sender b closes s' fx H k. unfold handle_note in H.
  destruct (read_note b) as [[e|e|e|p]|].
  1,2,5: injection H as <- <-; split; [intros []|intros (e' & E & _); discriminate].
  - injection H as <- <-. split.
    + destruct (here s (key_of e)) eqn:E; cbn [In]; [|tauto]. intros [E2|[]]. injection E2 as <-. exists e. auto.
    + intros (e' & E & K & Hh). injection E as <-. rewrite K, Hh. left; reflexivity.
  - destruct (_ && _); [discriminate|]. injection H as <- <-. split; [intros []|intros (e' & E & _); discriminate].
Qed.

(** the provider is told whether anybody is interested in an event: right before the message, right
    after it (an Outdated message excepted, see C83_outdated_refuted) *)
Definition status_right (s : proc) : Prop :=
  forall k b, told s k = Some b -> (b = true <-> here s k = true \/ exists p, In p pids /\ nodes s k p = true).

Lemma nobody_spec v : nobody pids v = true <-> forall p, In p pids -> v p = false.
Proof.
  unfold nobody. rewrite forallb_forall. split; intros H p Hp; specialize (H p Hp); [apply negb_true_iff in H|apply negb_true_iff]; assumption.
Qed.
Lemma nobody_false v : nobody pids v = false <-> exists p, In p pids /\ v p = true.
Proof.
  unfold nobody. split.
  - induction pids as [|p r IH]; cbn [forallb]; [discriminate|]. destruct (v p) eqn:E; cbn [negb andb].
    + intros _. exists p. split; [left; reflexivity|assumption].
    + intros H. destruct (IH H) as (q & Hq & Eq). exists q. split; [right; assumption|assumption].
  - intros (p & Hp & E). apply not_true_is_false. intros H. rewrite forallb_forall in H. specialize (H p Hp). rewrite E in H. discriminate.
Qed.

Theorem C83_status_right_partial : forall s sender b closes s' fx,
  handle_note pids s sender b closes = Fine s' fx ->
  In sender pids -> (forall p, read_note b <> Some (Outdated p)) -> status_right s -> status_right s'.
Proof.
  intros s sender b closes s' fx H Hs Ho R. unfold handle_note in H.
  destruct (read_note b) as [[e|e|e|p]|]; [..|injection H as <- <-; assumption].
  - injection H as <- <-. set (k0 := key_of e) in *. intros k c.
    destruct (nobody pids (nodes s k0) && negb (here s k0)) eqn:C.
    + unfold tell, set_nodes; cbn [told]. destruct (told s k0) eqn:T; cbn [told nodes here].
      * unfold eupd. destruct (ekey_eqb k k0) eqn:E; [|apply R]. apply ekey_eqb_spec in E as ->.
        intros E; injection E as <-. split; [|reflexivity]. intros _. right. exists sender. split; [assumption|].
        unfold nupd. rewrite N.eqb_refl. reflexivity.
      * unfold eupd. destruct (ekey_eqb k k0) eqn:E; [|apply R]. apply ekey_eqb_spec in E as ->. rewrite T. discriminate.
    + unfold set_nodes, eupd; cbn [told nodes here]. destruct (ekey_eqb k k0) eqn:E; [|apply R]. apply ekey_eqb_spec in E as ->.
      intros T. rewrite (R _ _ T). split; intros [Hh|(p & Hp & Ep)]; [left; assumption| |left; assumption|].
      * right. exists sender. split; [assumption|]. unfold nupd. rewrite N.eqb_refl. reflexivity.
      * destruct (here s k0); [left; reflexivity|]. right. apply andb_false_iff in C as [C|C]; [|discriminate].
        apply nobody_false in C. exact C.
  - injection H as <- <-. set (k0 := key_of e) in *. intros k c.
    destruct (nodes s k0 sender && nobody pids (nupd (nodes s k0) sender false) && negb (here s k0)) eqn:C.
    + unfold tell, set_nodes; cbn [told]. destruct (told s k0) eqn:T; cbn [told nodes here].
      * unfold eupd. destruct (ekey_eqb k k0) eqn:E; [|apply R]. apply ekey_eqb_spec in E as ->.
        intros E; injection E as <-. apply andb_true_iff in C as (C & C3). apply andb_true_iff in C as (C1 & C2).
        rewrite nobody_spec in C2. split; [discriminate|]. intros [Hh|(p & Hp & Ep)]; [rewrite Hh in C3; discriminate|].
        rewrite (C2 p Hp) in Ep. discriminate.
      * unfold eupd. destruct (ekey_eqb k k0) eqn:E; [|apply R]. apply ekey_eqb_spec in E as ->. rewrite T. discriminate.
    + unfold set_nodes, eupd; cbn [told nodes here]. destruct (ekey_eqb k k0) eqn:E; [|apply R]. apply ekey_eqb_spec in E as ->.
      intros T. rewrite (R _ _ T). split; intros [Hh|(p & Hp & Ep)]; [left; assumption| |left; assumption|].
      * destruct (here s k0); [left; reflexivity|]. right. rewrite andb_true_r in C.
        destruct (N.eq_dec p sender) as [->|Hn].
        -- rewrite Ep in C. cbn [andb] in C. apply nobody_false in C. exact C.
        -- exists p. split; [assumption|]. unfold nupd. apply N.eqb_neq in Hn as ->. assumption.
      * right. exists p. split; [assumption|]. unfold nupd in Ep. destruct (p =? sender); [discriminate|assumption].
  - injection H as <- <-; assumption.
  - exfalso. apply (Ho p). reflexivity.
Qed.

(** malformed bytes change nothing *)
Theorem C83_malformed_ignored : forall s sender b closes,
  read_note b = None -> handle_note pids s sender b closes = Fine s [].
Proof. intros s sender b closes H. unfold handle_note. rewrite H. reflexivity. Qed.

(** only an Outdated message about a process with a connection that does not end in time terminates *)
Theorem C83_notes_terminate : forall s sender b closes,
  handle_note pids s sender b closes = Terminated <->
  exists p, read_note b = Some (Outdated p) /\ conns s p = true /\ closes = false.
Proof.
  intros s sender b closes. unfold handle_note. split.
  - destruct (read_note b) as [[e|e|e|p]|]; try discriminate. destruct (conns s p) eqn:C, closes; cbn; try discriminate.
    intros _. exists p. auto.
  - intros (p & -> & -> & ->). reflexivity.
Qed.
End Notes.

(** what the sizes and kinds are: exactly the messages of 9 bytes with kind 1, 2, 3 and of 5 bytes
    with kind 4 are understood *)
Theorem C83_which_notes : forall b, read_note b <> None <->
  (exists p, (b = 1 :: p \/ b = 2 :: p \/ b = 3 :: p) /\ length p = 8%nat) \/ (exists p, b = 4 :: p /\ length p = 4%nat).
Proof.
  intros b. unfold read_note, sized. split.
  - destruct b as [|t p]; [tauto|].
    destruct (t =? 1) eqn:T1; [|destruct (t =? 2) eqn:T2; [|destruct (t =? 3) eqn:T3; [|destruct (t =? 4) eqn:T4; [|tauto]]]];
      match goal with |- context [(?a =? ?n)%nat] => destruct (a =? n)%nat eqn:L end; cbn [option_map]; intros H; try congruence;
      apply Nat.eqb_eq in L; [left|left|left|right]; exists p.
    + split; [left; f_equal; lia|assumption].
    + split; [right; left; f_equal; lia|assumption].
    + split; [right; right; f_equal; lia|assumption].
    + split; [f_equal; lia|assumption].
  - intros [(p & [-> | [-> | ->]] & L)|(p & -> & L)]; unfold byte in *; cbn [N.eqb Pos.eqb]; cbv iota; rewrite L; discriminate.
Qed.

(** FALSE: a message of one process changes nobody else's registrations: process 7 tells that process
    5 is outdated, and the registration of process 5 is gone, although 5 never asked for it. *)
Definition wit : proc := mkProc (fun k q => ekey_eqb k (1, 1, 1) && (q =? 5)) (fun _ => false) (fun _ => Some true) (fun _ => false).
Theorem C83_outdated_refuted : exists s sender b s',
  handle_note [5; 7] s sender b true = Fine s' [] /\ nodes s (1, 1, 1) 5 = true /\ sender <> 5 /\
  nodes s' (1, 1, 1) 5 = false /\
  (* nor is the provider told that nobody is interested any more *)
  told s' (1, 1, 1) = Some true /\ nobody [5; 7] (nodes s' (1, 1, 1)) = true.
Proof.
  exists wit, 7, (write_note (fun _ => 0) (Outdated 5)). eexists. split; [reflexivity|].
  repeat split; try reflexivity. discriminate.
Qed.

(** ** Non-vacuity *)
Example ex_note : note_ok (Register (mkF 65535 7 300 2)) /\
  write_note (fun i => 170 + N.of_nat i) (Register (mkF 65535 7 300 2)) = [1; 255; 255; 7; 0; 44; 1; 2; 170].
Proof. vm_compute. repeat split; reflexivity. Qed.
Example ex_call : request_ok (CallMethod (mkPm (mkPx 4294967295 3) 9 1) 18446744073709551615) /\
  ask true true (fun _ => 99) (CallMethod (mkPm (mkPx 4294967295 3) 9 1) 18446744073709551615) Runs = VOk.
Proof. vm_compute. repeat split; reflexivity. Qed.
Example ex_register : exists s', handle_note [5; 7] wit 7 [1; 1; 0; 1; 0; 1; 0; 2; 55] true = Fine s' [] /\ nodes s' (1, 1, 1) 7 = true /\ nodes wit (1, 1, 1) 7 = false.
Proof. eexists; split; [reflexivity|split; reflexivity]. Qed.
Example ex_status : status_right [5; 7] (mkProc (nodes wit) (here wit) (fun k => if ekey_eqb k (1, 1, 1) then Some true else None) (conns wit)).
Proof.
  intros k b; cbn [told here nodes]. unfold wit; cbn [nodes here]. destruct (ekey_eqb k (1, 1, 1)); [|discriminate].
  intros E; injection E as <-. split; [|reflexivity]. intros _. right. exists 5. split; [left; reflexivity|reflexivity].
Qed.
Example ex_malformed : read_note [1; 2; 3] = None /\ exists w, handle_request true true [9] Runs = Replied w false.
Proof. split; [reflexivity|exists [2; 0; 0; 0]; vm_compute; reflexivity]. Qed.

Print Assumptions C83_notes_are_understood.
Print Assumptions C83_requests_are_understood.
Print Assumptions C83_caller_learns_the_outcome.
Print Assumptions C83_others_registrations_kept_partial.
