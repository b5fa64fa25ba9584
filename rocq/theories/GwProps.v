(** C38, C39, C40, C41: the gateway's messages on the wire. *)
From Verif Require Import Base GwCodecModel GwFramerModel GwCodecProofs.
Local Open Scope N_scope.

(** * Specification vocabulary *)

(** Message bodies as the C++ types allow them: integers in range, EventInfo of its size, matching kind. *)
Definition body_ok (t : mtype) (b : body) : Prop :=
  match t, b with
  | KProvide, BProvide s es c d => Forall (fun e => len e = 32) es /\ c < 4294967296 /\ d < 4294967296
  | KAck, BAck n => n < 4294967296
  | (KOffer | KStopOffer), BInstance _ => True
  | (KRegister | KUnregister | KUpdate), BElement _ _ _ => True
  | _, _ => False
  end.
(** The strings of a body: non-empty and without NUL *)
Definition string_ok (s : byte_list) : Prop := s <> [] /\ ~ In 0 s.
Definition strings_ok (b : body) : Prop :=
  match b with
  | BProvide s es _ _ => string_ok s
  | BAck _ => True
  | BInstance s => string_ok s
  | BElement s _ n => string_ok s /\ string_ok n
  end.
Definition lists_ok (b : body) : Prop := match b with BProvide _ es _ _ => N.of_nat (length es) < 65536 | _ => True end.
(** The number of bytes on the wire, per kind *)
Definition wire_size (b : body) : N :=
  match b with
  | BProvide s es _ _ => len s + 1 + 2 + 32 * N.of_nat (length es) + 4 + 4
  | BAck _ => 4
  | BInstance s => len s + 1
  | BElement s _ n => len s + 1 + 1 + len n + 1
  end.

(** * C38 *)
Lemma blobs_size es : Forall (fun e => len e = 32) es -> sizes (map VBlob es) = 32 * N.of_nat (length es).
Proof. induction 1 as [|e es E _ IH]; [reflexivity|]. cbn [map length]. rewrite sizes_cons, IH. cbn [csize]. lia. Qed.

Lemma wire_size_csize t b : body_ok t b -> csize (members b) = wire_size b.
Proof.
  destruct b as [s es c d|n|s|s e n]; intros B; cbn [members wire_size].
  - assert (F : Forall (fun e => len e = 32) es) by (destruct t; cbn in B; tauto).
    change (sizes [VStr s; VVec (map VBlob es); VBlob (le32 c); VBlob (le32 d)] = len s + 1 + 2 + 32 * N.of_nat (length es) + 4 + 4).
    rewrite !sizes_cons. cbn [csize]. rewrite fold_size. fold (sizes (map VBlob es)). rewrite blobs_size by exact F.
    change (len (le32 c)) with 4. change (len (le32 d)) with 4. change (sizes []) with 0. lia.
  - reflexivity.
  - change (sizes [VStr s] = len s + 1). rewrite sizes_cons. cbn [csize]. change (sizes []) with 0. lia.
  - change (sizes [VStr s; VBlob [e]; VStr n] = len s + 1 + 1 + len n + 1). rewrite !sizes_cons. cbn [csize]. change (len [e]) with 1. change (sizes []) with 0. lia.
Qed.

Lemma members_good t b : body_ok t b -> strings_ok b -> lists_ok b -> good (members_ty t) (members b).
Proof.
  assert (EL : forall es, Forall (fun e => len e = 32) es -> Forall (good (TBlob 32)) (map VBlob es)).
  { induction 1; constructor; [constructor; assumption|assumption]. }
  destruct t, b; cbn [body_ok]; try tauto; intros B S L; cbn [strings_ok lists_ok] in *; unfold string_ok in *; cbn [members members_ty]; constructor;
    repeat (constructor; try tauto; try (rewrite ?map_length; lia); try reflexivity).
  apply EL. tauto.
Qed.

Lemma body_of_members t b : body_ok t b -> body_of t (members b) = Some b.
Proof.
  destruct t, b; cbn [body_ok]; try tauto; intros B; cbn [members body_of]; try reflexivity; rewrite ?of_le32_le32 by tauto; try reflexivity.
  do 2 f_equal. rewrite map_map. cbn [blob]. apply map_id.
Qed.

Lemma members_small t b : body_ok t b -> (lists_ok b <-> small_vecs (members b)).
Proof.
  destruct b as [s es c d|n|s|s e n]; intros B; cbn [lists_ok members]; split; intros H; auto.
  - constructor. repeat constructor; [rewrite map_length; lia|]. clear. induction es; constructor; [constructor|assumption].
  - inversion_clear H as [| | |vs F]. inversion_clear F as [|? ? _ F1]. inversion_clear F1 as [|? ? V _]. inversion_clear V as [| |vs LV _|]. rewrite map_length in LV. lia.
  - repeat constructor.
  - repeat constructor.
  - repeat constructor.
Qed.

(** Encoding never writes outside the buffer: for every message and every buffer the outcome is defined, the
    buffer keeps its length and what is behind the reported size keeps its content. *)
Theorem C38_encoder_stays_in_buffer : forall t b buffer, body_ok t b -> len buffer < 4294967296 ->
  exists n buffer', msg_serialize b buffer = SOk n buffer' /\ len buffer' = len buffer /\
    (n <> 0 -> n = wire_size b /\ n <= len buffer /\ skipn (N.to_nat n) buffer' = skipn (N.to_nat n) buffer).
Proof.
  intros t b buffer B L. unfold msg_serialize. pose proof (ser_ok (members b) (firstn (N.to_nat (csize (members b))) buffer)) as S.
  destruct (N.ltb_spec (len buffer) (csize (members b))) as [LT|GE]; [exists 0, buffer; split; [reflexivity|]; split; [reflexivity|]; lia|].
  rewrite len_firstn in S by exact GE. specialize (S ltac:(lia)).
  destruct (ser (members b) (firstn (N.to_nat (csize (members b))) buffer)) as [n buf|buf|]; [| |destruct S].
  - destruct S as (_ & _ & E & _). exists (csize (members b)), (buf ++ skipn (N.to_nat (csize (members b))) buffer). split; [reflexivity|].
    assert (LB : len buf = csize (members b)).
    { rewrite E, len_app, enc_len, len_skipn, len_firstn by exact GE. lia. }
    split; [rewrite len_app, LB, len_skipn; lia|]. intros _. split; [apply wire_size_csize with t; exact B|]. split; [exact GE|].
    rewrite <- LB at 1. apply skipn_len_app.
  - destruct S as (E & _). exists 0, (buf ++ skipn (N.to_nat (csize (members b))) buffer). split; [reflexivity|]. split; [rewrite len_app, E, len_skipn; lia|]. lia.
Qed.

Lemma serialize_enc t b buffer : body_ok t b -> lists_ok b -> wire_size b <= len buffer -> len buffer < 4294967296 ->
  msg_serialize b buffer = SOk (wire_size b) (enc (members b) ++ skipn (N.to_nat (wire_size b)) buffer).
Proof.
  intros B LO W L. unfold msg_serialize. rewrite (wire_size_csize t b B).
  destruct (N.ltb_spec (len buffer) (wire_size b)); [lia|]. pose proof (ser_ok (members b) (firstn (N.to_nat (wire_size b)) buffer)) as S.
  rewrite len_firstn in S by exact W. specialize (S ltac:(lia)). rewrite (wire_size_csize t b B) in S.
  destruct (ser (members b) _) as [n buf|buf|]; [| |destruct S].
  - destruct S as (_ & _ & -> & _). rewrite skipn_all2; [rewrite app_nil_r; reflexivity|]. pose proof (len_firstn _ _ W) as LF. unfold len in LF. lia.
  - destruct S as (_ & S). apply (members_small t b B) in LO. specialize (S LO). lia.
Qed.

(** A message with non-empty NUL-free strings and fewer than 65536 elements that fits into the buffer is written
    in full, and decoding it gives it back, whatever follows it. *)
Theorem C38_round_trip : forall t b buffer trailing, body_ok t b -> strings_ok b -> lists_ok b ->
  wire_size b <= len buffer -> len buffer + len trailing < 4294967296 ->
  exists buffer', msg_serialize b buffer = SOk (wire_size b) buffer' /\
    msg_deserialize t (firstn (N.to_nat (wire_size b)) buffer' ++ trailing) = MdOk b.
Proof.
  intros t b buffer trailing B S LO W L. exists (enc (members b) ++ skipn (N.to_nat (wire_size b)) buffer).
  split; [apply serialize_enc with t; auto; lia|]. rewrite <- (wire_size_csize t b B), <- enc_len, firstn_len_app.
  unfold msg_deserialize. destruct (des_ok (members_ty t)) as [D _].
  rewrite D; [rewrite body_of_members by exact B; reflexivity|apply members_good; auto|].
  rewrite len_app, enc_len, (wire_size_csize t b B). lia.
Qed.

(** If it does not fit nothing is reported as written. *)
Theorem C38_too_small : forall t b buffer, body_ok t b -> len buffer < wire_size b -> msg_serialize b buffer = SOk 0 buffer.
Proof.
  intros t b buffer B L. unfold msg_serialize. rewrite (wire_size_csize t b B).
  destruct (N.ltb_spec (len buffer) (wire_size b)); [reflexivity|lia].
Qed.

Example C38_example : let b := BElement [47; 97] 1 [98] in
  body_ok KUpdate b /\ strings_ok b /\ lists_ok b /\
  msg_serialize b (repeat 7 8) = SOk 6 [47; 97; 0; 1; 98; 0; 7; 7] /\
  msg_deserialize KUpdate [47; 97; 0; 1; 98; 0; 7; 7] = MdOk b.
Proof.
  cbn zeta. split; [exact I|]. split.
  - split; split; try discriminate; intros X; repeat (destruct X as [X|X]; [discriminate X|]); exact X.
  - split; [exact I|]. vm_compute. auto.
Qed.

(** * C39 *)

(** Decoding arbitrary bytes is defined: nothing is read outside them.  What is accepted is a proper encoding of
    the result, which has the properties under which messages survive the wire. *)
Theorem C39_decoder_is_safe : forall t data, len data < 4294967296 -> is_bytes data ->
  match msg_deserialize t data with
  | MdOk b => body_ok t b /\ strings_ok b /\ lists_ok b /\ wire_size b <= len data /\
              exists rest, data = enc (members b) ++ rest
  | MdFail => True
  | MdUB => False
  end.
Proof.
  intros t data L BY. unfold msg_deserialize. destruct (des_ok (members_ty t)) as [_ D]. specialize (D data L BY).
  destruct (des (members_ty t) data) as [v n| |]; [|exact I|exact D]. destruct D as (G & -> & rest & E).
  assert (BV : is_bytes (enc v)) by (rewrite E in BY; apply is_bytes_app in BY; tauto).
  assert (LV : len (enc v) <= len data) by (rewrite E, len_app; lia).
  assert (B4 : forall x, len x = 4 -> is_bytes x -> of_le32 x < 4294967296 /\ le32 (of_le32 x) = x) by (intros x X Y; apply of_le32_bound; [unfold len in X; lia|exact Y]).
  assert (KEY : exists b, body_of t v = Some b /\ body_ok t b /\ strings_ok b /\ lists_ok b /\ enc (members b) = enc v).
  { clear E LV L BY. destruct t; cbn [members_ty] in G; inversion G as [| | |ts vs F]; subst; clear G;
    repeat match goal with
    | H : Forall2 _ _ _ |- _ => inversion H; subst; clear H
    | H : good TStr _ |- _ => inversion H; subst; clear H
    | H : good (TBlob _) _ |- _ => inversion H; subst; clear H
    | H : good (TVec _) _ |- _ => inversion H; subst; clear H
    end; cbn [enc map concat] in BV; rewrite ?app_nil_r in *.
    - (* provide *)
      match goal with H : Forall (good _) ?vs |- _ => rename vs into es; rename H into FE end.
      apply is_bytes_app in BV. destruct BV as [BS BV]. apply is_bytes_app in BV. destruct BV as [BE BV]. apply is_bytes_app in BV. destruct BV as [BC BD].
      match goal with H : len ?c = 4, K : len ?d = 4 |- _ => idtac end.
      repeat match goal with H : len ?c = 4, K : is_bytes ?c |- _ => destruct (B4 c H K); clear H end.
      assert (EB : map VBlob (map blob es) = es /\ Forall (fun e => len e = 32) (map blob es)).
      { clear - FE. induction FE as [|e es He _ [A B]]; [split; [reflexivity|constructor]|]. inversion He; subst. cbn [map blob]. rewrite A. split; [reflexivity|]. constructor; assumption. }
      destruct EB as [EB FB]. eexists. split; [reflexivity|]. split; [cbn; tauto|]. split; [cbn; unfold string_ok; tauto|]. split; [cbn; rewrite map_length; lia|].
      cbn [members enc map concat]. rewrite EB. rewrite ?app_nil_r. do 3 (f_equal; try assumption).
    - eexists. split; [reflexivity|]. split; [exact I|]. split; [split; auto|]. split; [exact I|]. cbn [members enc map concat]. rewrite app_nil_r. reflexivity.
    - eexists. split; [reflexivity|]. split; [exact I|]. split; [split; auto|]. split; [exact I|]. cbn [members enc map concat]. rewrite app_nil_r. reflexivity.
    - match goal with H : len ?c = 1 |- _ => destruct c as [|x [|y c]]; unfold len in H; cbn in H; try lia end.
      eexists. split; [reflexivity|]. split; [exact I|]. split; [split; split; auto|]. split; [exact I|]. cbn [members enc map concat]. rewrite app_nil_r. reflexivity.
    - match goal with H : len ?c = 1 |- _ => destruct c as [|x [|y c]]; unfold len in H; cbn in H; try lia end.
      eexists. split; [reflexivity|]. split; [exact I|]. split; [split; split; auto|]. split; [exact I|]. cbn [members enc map concat]. rewrite app_nil_r. reflexivity.
    - repeat match goal with H : len ?c = 4, K : is_bytes ?c |- _ => destruct (B4 c H K); clear H end.
      eexists. split; [reflexivity|]. split; [cbn; assumption|]. split; [exact I|]. split; [exact I|]. cbn [members enc map concat]. rewrite ?app_nil_r. assumption.
    - match goal with H : len ?c = 1 |- _ => destruct c as [|x [|y c]]; unfold len in H; cbn in H; try lia end.
      eexists. split; [reflexivity|]. split; [exact I|]. split; [split; split; auto|]. split; [exact I|]. cbn [members enc map concat]. rewrite app_nil_r. reflexivity. }
  destruct KEY as (b & -> & BO & SO & LO & EV). split; [exact BO|]. split; [exact SO|]. split; [exact LO|].
  split; [rewrite <- (wire_size_csize t b BO), <- enc_len, EV; exact LV|]. exists rest. rewrite EV. exact E.
Qed.

(** * Framing *)
Definition frame (m : message) : byte_list :=
  header_bytes (mtype_code (m_type m)) (m_seq m) (wire_size (m_body m)) ++ enc (members (m_body m)).

(** Messages the framer can send: well formed, encodable, at most 1024 bytes. *)
Definition sendable (m : message) : Prop :=
  body_ok (m_type m) (m_body m) /\ strings_ok (m_body m) /\ lists_ok (m_body m) /\ wire_size (m_body m) <= 1024 /\ m_seq m < 4294967296.

Lemma wire_pos t b : body_ok t b -> 0 < wire_size b.
Proof. destruct b; cbn [wire_size]; intros; lia. Qed.

Lemma send_all_spec o : forall fuel pos data, (length data <= fuel)%nat ->
  let '(r, out, _) := send_all fuel o pos data in
  (exists n, out = firstn n data) /\ (r = true -> out = data) /\ ((forall i, o i <> SendError) -> r = true).
Proof.
  induction fuel as [|fuel IH]; intros pos data L.
  - destruct data; [|cbn in L; lia]. cbn. split; [exists 0%nat; reflexivity|auto].
  - destruct data as [|x data']; [cbn; split; [exists 0%nat; reflexivity|auto]|]. set (data := x :: data') in *.
    assert (LD : (0 < length data)%nat) by (cbn; lia). cbn [send_all]. unfold data at 1. fold data. cbv iota.
    destruct (o pos) as [|k] eqn:O.
    + split; [exists 0%nat; reflexivity|]. split; [discriminate|]. intros NE. destruct (NE pos O).
    + set (n := Nat.min (S k) (length data)). specialize (IH (S pos) (skipn n data)). rewrite skipn_length in IH. specialize (IH ltac:(lia)).
      destruct (send_all fuel o (S pos) (skipn n data)) as [[r out] pos']. destruct IH as ((j & E) & T & NE). split; [|split; [|exact NE]].
      * exists (n + j)%nat. rewrite E. clear - data. assert (G : forall (l : list N) n j, firstn n l ++ firstn j (skipn n l) = firstn (n + j) l).
        { induction l as [|a l IHl]; intros [|n0] j0; cbn; try reflexivity; [destruct j0; reflexivity|]. f_equal. apply IHl. }
        apply G.
      * intros R. rewrite (T R). apply firstn_skipn.
Qed.

Lemma receive_all_spec o : forall fuel pos want stream, (want <= fuel)%nat ->
  match receive_all fuel o pos want stream with
  | RaAll b rest _ => (want <= length stream)%nat /\ b = firstn want stream /\ rest = skipn want stream
  | RaClosed => (length stream < want)%nat
  | RaError => exists i, o i = RecvError
  end.
Proof.
  induction fuel as [|fuel IH]; intros pos want stream L.
  - destruct want; [|lia]. cbn. split; [lia|auto].
  - destruct want as [|w]; [cbn; split; [lia|auto]|]. set (want := S w) in *. assert (0 < want)%nat by (unfold want; lia). cbn [receive_all]. unfold want at 1. cbv iota.
    destruct (o pos) as [|k] eqn:O; [eauto|]. fold want. destruct (Nat.min (Nat.min (S k) want) (length stream)) as [|n'] eqn:M; [lia|].
    set (n := S n') in *. specialize (IH (S pos) (want - n)%nat (skipn n stream)). rewrite skipn_length in IH. specialize (IH ltac:(lia)).
    destruct (receive_all fuel o (S pos) (want - n) (skipn n stream)) as [b rest pos'| |]; [| |exact IH].
    + destruct IH as (A & -> & ->). split; [lia|]. assert (WN : want = (n + (want - n))%nat) by lia. rewrite WN at 2 4.
      assert (G : forall (l : list N) n j, firstn n l ++ firstn j (skipn n l) = firstn (n + j) l /\ skipn j (skipn n l) = skipn (n + j) l).
      { clear. induction l as [|a l IHl]; intros [|n] j; cbn; try (split; reflexivity); [destruct j; split; reflexivity|]. destruct (IHl n j) as [A B]. rewrite A, B. split; reflexivity. }
      destruct (G stream n (want - n)%nat). auto.
    + lia.
Qed.

Lemma receive_into_spec o pos buf want stream : want <= len buf ->
  match receive_into o pos buf want stream with
  | RiAll buf' rest _ => want <= len stream /\ buf' = firstn (N.to_nat want) stream ++ skipn (N.to_nat want) buf /\ rest = skipn (N.to_nat want) stream
  | RiFail => (exists i, o i = RecvError) \/ len stream < want
  | RiUB => False
  end.
Proof.
  intros L. unfold receive_into. destruct (N.ltb_spec (len buf) want); [lia|].
  pose proof (receive_all_spec o (N.to_nat want) pos (N.to_nat want) stream ltac:(lia)) as R.
  destruct (receive_all _ _ _ _ _) as [b rest pos'| |]; [|right; unfold len; lia|left; exact R].
  destruct R as (A & -> & ->). split; [unfold len; lia|]. split; [|reflexivity]. rewrite firstn_length_le by lia. reflexivity.
Qed.




Lemma header_round c s n : s < 4294967296 -> n < 4294967296 -> header_of (header_bytes c s n) = (c, s, n).
Proof. intros S L. unfold header_bytes, header_of. cbn [app]. change (firstn 4 (le32 s ++ le32 n)) with (le32 s). change (skipn 4 (le32 s ++ le32 n)) with (le32 n). rewrite !of_le32_le32 by assumption. reflexivity. Qed.

Lemma code_round t : mtype_of_code (mtype_code t) = Some t.
Proof. destruct t; reflexivity. Qed.

Lemma frame_len m : sendable m -> len (frame m) = 9 + wire_size (m_body m).
Proof. intros (B & _). unfold frame. rewrite len_app, enc_len, (wire_size_csize _ _ B). reflexivity. Qed.

Lemma read_prefix p x n : len p = n -> read_at (p ++ x) 0 n = Some p.
Proof.
  intros LP. unfold read_at. rewrite len_app, LP. destruct (N.leb_spec (0 + n) (n + len x)); [|lia].
  change (N.to_nat 0) with 0%nat. cbn [skipn]. rewrite <- LP, firstn_len_app. reflexivity.
Qed.

Lemma firstn_firstn_skip a b (l : byte_list) : firstn a (skipn b l) = skipn b (firstn (b + a) l).
Proof. revert b. induction l as [|x l IH]; intros [|b]; cbn; try reflexivity; [rewrite ?firstn_nil, ?skipn_nil; destruct a; reflexivity|]. apply IH. Qed.

(** receiving from a stream that starts with (a prefix of) the frame of a sendable message *)
Lemma receive_frame o pos buf m stream cut : sendable m -> len buf = 1024 ->
  match receive_message o pos buf (firstn cut (frame m ++ stream)) with
  | RmMessage m' rest _ buf' => m' = m /\ len (frame m) <= N.of_nat cut /\ rest = firstn (cut - length (frame m)) stream /\ len buf' = 1024
  | RmNull => (exists i, o i = RecvError) \/ N.of_nat cut < len (frame m)
  | RmUB => False
  end.
Proof.
  intros SM LB. pose proof (frame_len m SM) as FL. destruct SM as (BO & SO & LO & W & SQ). pose proof (wire_pos _ _ BO) as WP.
  set (h := header_bytes (mtype_code (m_type m)) (m_seq m) (wire_size (m_body m))) in *. set (p := enc (members (m_body m))) in *.
  assert (LH : len h = 9) by reflexivity. assert (LP : len p = wire_size (m_body m)) by (unfold p; rewrite enc_len; apply wire_size_csize with (m_type m); exact BO).
  assert (FE : frame m = h ++ p) by reflexivity. set (all := firstn cut (frame m ++ stream)). unfold receive_message.
  pose proof (receive_into_spec o pos (repeat 0 9) kWireSize all ltac:(change (len (repeat 0 9)) with 9; unfold kWireSize; lia)) as R1.
  assert (LA : len all <= N.of_nat cut) by (unfold all, len; rewrite firstn_length; lia).
  assert (LA2 : N.of_nat cut <= len (frame m) -> len all = N.of_nat cut) by (intros X; unfold all, len in *; rewrite firstn_length, app_length; lia).
  assert (LA3 : len (frame m) <= N.of_nat cut -> len (frame m) <= len all) by (intros X; unfold all, len in *; rewrite firstn_length, app_length; lia).
  destruct (receive_into o pos (repeat 0 9) kWireSize all) as [hb rest pos1| |]; [| |destruct R1].
  2:{ destruct R1 as [R1|R1]; [left; exact R1|right]. unfold kWireSize in R1. destruct (N.le_gt_cases (len (frame m)) (N.of_nat cut)) as [X|X]; [|exact X]. specialize (LA3 X). lia. }
  destruct R1 as (A & -> & ->). unfold kWireSize in *. change (N.to_nat 9) with 9%nat in *. change (skipn 9 (repeat 0 9)) with (@nil N). rewrite app_nil_r.
  assert (FH : firstn 9 all = h).
  { unfold all. rewrite firstn_firstn. replace (Nat.min 9 cut) with 9%nat by (unfold all, len in A; rewrite firstn_length in A; lia).
    rewrite FE, <- app_assoc. change 9%nat with (N.to_nat (len h)). apply firstn_len_app. }
  rewrite FH. unfold h at 1. rewrite header_round by lia. unfold kMaxPayloadSize. destruct (N.ltb_spec 1024 (wire_size (m_body m))); [lia|].
  destruct (N.ltb_spec 0 (wire_size (m_body m))); [|lia].
  pose proof (receive_into_spec o pos1 buf (wire_size (m_body m)) (skipn 9 all) ltac:(lia)) as R2.
  assert (LS : len (skipn 9 all) = len all - 9) by (unfold len; rewrite skipn_length; lia).
  destruct (receive_into o pos1 buf (wire_size (m_body m)) (skipn 9 all)) as [buf' rest' pos'| |]; [| |destruct R2].
  2:{ destruct R2 as [R2|R2]; [left; exact R2|right]. destruct (N.le_gt_cases (len (frame m)) (N.of_nat cut)) as [X|X]; [|exact X]. specialize (LA3 X). lia. }
  destruct R2 as (A2 & -> & ->). rewrite code_round.
  assert (CUT : len (frame m) <= N.of_nat cut) by lia.
  assert (ALL : all = h ++ p ++ firstn (cut - length (frame m)) stream).
  { unfold all. rewrite firstn_app. rewrite firstn_all2 by (unfold len in CUT; lia). rewrite FE at 1. rewrite <- app_assoc. reflexivity. }
  assert (SK : skipn 9 all = p ++ firstn (cut - length (frame m)) stream).
  { rewrite ALL. change 9%nat with (N.to_nat (len h)). apply skipn_len_app. }
  assert (F1 : forall x, firstn (N.to_nat (wire_size (m_body m))) (p ++ x) = p) by (intros; rewrite <- LP; apply firstn_len_app).
  assert (F2 : forall x, skipn (N.to_nat (wire_size (m_body m))) (p ++ x) = x) by (intros; rewrite <- LP; apply skipn_len_app).
  assert (RA : forall x, read_at (p ++ x) 0 (wire_size (m_body m)) = Some p).
  { intros x. unfold read_at. rewrite len_app, LP. destruct (N.leb_spec (0 + wire_size (m_body m)) (wire_size (m_body m) + len x)); [|lia].
    change (N.to_nat 0) with 0%nat. cbn [skipn]. rewrite F1. reflexivity. }
  rewrite SK, F1, F2, RA.
  unfold msg_deserialize. destruct (des_ok (members_ty (m_type m))) as [D _]. pose proof (D (members (m_body m)) []) as D1. rewrite app_nil_r in D1. fold p in D1.
  rewrite D1; [|apply members_good; auto|lia]. rewrite body_of_members by exact BO.
  destruct m as [t s b]; cbn in *. split; [reflexivity|]. split; [exact CUT|]. split; [reflexivity|]. rewrite len_app, LP, len_skipn. lia.
Qed.

Lemma send_frame o pos buf m : sendable m -> len buf = 1024 -> (forall i, o i <> SendError) ->
  exists pos' buf', send_message o pos buf m = (SmOk, frame m, pos', buf') /\ len buf' = 1024.
Proof.
  intros (BO & SO & LO & W & SQ) LB NE. pose proof (wire_pos _ _ BO) as WP. unfold send_message. rewrite (serialize_enc (m_type m)) by (auto; lia).
  set (p := enc (members (m_body m))). assert (LP : len p = wire_size (m_body m)) by (unfold p; rewrite enc_len; apply wire_size_csize with (m_type m); exact BO).
  destruct (N.eqb_spec (wire_size (m_body m)) 0); [lia|]. rewrite u32_small by lia.
  set (h := header_bytes _ _ _). pose proof (send_all_spec o (length h) pos h (le_n _)) as S1. destruct (send_all (length h) o pos h) as [[r1 out1] pos1].
  destruct S1 as (_ & T1 & N1). rewrite (N1 NE). rewrite (T1 (N1 NE)).
  rewrite (read_prefix p _ _ LP).
  pose proof (send_all_spec o (length p) pos1 p (le_n _)) as S2. destruct (send_all (length p) o pos1 p) as [[r2 out2] pos2].
  destruct S2 as (_ & T2 & N2). rewrite (N2 NE), (T2 (N2 NE)). eexists. eexists. split; [reflexivity|]. rewrite len_app, LP, len_skipn. lia.
Qed.

Lemma send_frames o : (forall i, o i <> SendError) -> forall ms pos buf, Forall sendable ms -> len buf = 1024 ->
  send_many o pos buf ms = (map (fun _ => SmOk) ms, concat (map frame ms)).
Proof.
  intros NE. induction ms as [|m ms IH]; intros pos buf F LB; [reflexivity|]. inversion_clear F. cbn [send_many map concat].
  destruct (send_frame o pos buf m) as (pos' & buf' & -> & LB'); auto. rewrite IH by auto. reflexivity.
Qed.

(** * C41 *)

(** However sendto() and recv() cut the stream and wherever the peer disconnects, the receiver sees exactly the
    messages whose bytes arrived completely, unchanged, in order, with their sequence numbers. *)
Theorem C41_stream : forall so ro ms sbuf rbuf cut, Forall sendable ms -> len sbuf = 1024 -> len rbuf = 1024 ->
  (forall i, so i <> SendError) -> (forall i, ro i <> RecvError) ->
  let '(results, stream) := send_many so 0 sbuf ms in
  Forall (fun r => r = SmOk) results /\
  exists k, receive_many (S (length ms)) ro 0 rbuf (firstn cut stream) = (firstn k ms, false) /\
    (length (snd (send_many so 0 sbuf (firstn k ms))) <= cut)%nat /\
    ((k < length ms)%nat -> (cut < length (snd (send_many so 0 sbuf (firstn (S k) ms))))%nat).
Proof.
  intros so ro ms sbuf rbuf cut F LS LR SE RE. rewrite send_frames by auto. split; [apply Forall_forall; intros r X; apply in_map_iff in X; destruct X as (? & <- & _); reflexivity|].
  assert (SF : forall k, snd (send_many so 0 sbuf (firstn k ms)) = concat (map frame (firstn k ms))).
  { intros k. rewrite send_frames; [reflexivity|exact SE| |exact LS]. apply Forall_forall. intros m X. rewrite Forall_forall in F. apply F. rewrite <- (firstn_skipn k ms). apply in_or_app. left. exact X. }
  setoid_rewrite SF. clear SF SE LS so sbuf. generalize 0%nat as pos. revert rbuf LR cut. induction F as [|m ms SM F IH]; intros rbuf LR cut pos.
  - exists 0%nat. cbn [map concat length]. rewrite firstn_nil. cbn [receive_many receive_message]. split; [|cbn; split; [lia|lia]].
    unfold receive_message. pose proof (receive_into_spec ro pos (repeat 0 9) kWireSize [] ltac:(change (len (repeat 0 9)) with 9; unfold kWireSize; lia)) as R.
    destruct (receive_into ro pos (repeat 0 9) kWireSize []); [|reflexivity|destruct R]. destruct R as [R _]. unfold kWireSize, len in R. cbn in R. lia.
  - cbn [map concat length]. pose proof (receive_frame ro pos rbuf m (concat (map frame ms)) cut SM LR) as R.
    change (receive_many (S (S (length ms))) ro pos rbuf (firstn cut (frame m ++ concat (map frame ms)))) with
      (match receive_message ro pos rbuf (firstn cut (frame m ++ concat (map frame ms))) with
       | RmMessage m rest pos' buf' => let '(ms', ub) := receive_many (S (length ms)) ro pos' buf' rest in (m :: ms', ub)
       | RmNull => ([], false)
       | RmUB => ([], true)
       end).
    destruct (receive_message ro pos rbuf _) as [m' rest pos' buf'| |]; [| |destruct R].
    + destruct R as (-> & C & -> & LB). destruct (IH buf' LB (cut - length (frame m))%nat pos') as (k & E & B1 & B2). exists (S k). rewrite E.
      split; [reflexivity|]. unfold len in C. cbn [firstn map concat]. rewrite app_length. split; [lia|]. intros K. specialize (B2 ltac:(lia)).
      cbn [firstn map concat] in B2 |- *. destruct ms as [|m2 ms2]; [cbn in K; lia|]. cbn [firstn map concat] in B2. cbn [map concat]. rewrite !app_length in *. lia.
    + exists 0%nat. split; [reflexivity|]. cbn [firstn map concat length]. split; [lia|]. intros _. rewrite app_length. destruct R as [[i R]|R]; [destruct (RE i R)|unfold len in R; lia].
Qed.

(** With the whole stream delivered: all of them. *)
Corollary C41_everything_arrives : forall so ro ms sbuf rbuf, Forall sendable ms -> len sbuf = 1024 -> len rbuf = 1024 ->
  (forall i, so i <> SendError) -> (forall i, ro i <> RecvError) ->
  receive_many (S (length ms)) ro 0 rbuf (snd (send_many so 0 sbuf ms)) = (ms, false).
Proof.
  intros so ro ms sbuf rbuf F LS LR SE RE. pose proof (C41_stream so ro ms sbuf rbuf (length (snd (send_many so 0 sbuf ms))) F LS LR SE RE) as C.
  destruct (send_many so 0 sbuf ms) as [rs st] eqn:E. cbn [snd] in *. destruct C as (_ & k & C & _ & B). rewrite firstn_all in C. rewrite C. f_equal.
  destruct (Nat.lt_ge_cases k (length ms)) as [K|K]; [|apply firstn_all2; exact K]. specialize (B K). exfalso.
  assert (LE : (length (snd (send_many so 0 sbuf (firstn (S k) ms))) <= length (snd (send_many so 0 sbuf ms)))%nat).
  { assert (FF : Forall sendable (firstn (S k) ms)).
    { apply Forall_forall. intros m X. rewrite Forall_forall in F. apply F. rewrite <- (firstn_skipn (S k) ms). apply in_or_app. left. exact X. }
    rewrite !send_frames by auto. cbn [snd]. rewrite <- (firstn_skipn (S k) ms) at 2. rewrite map_app, concat_app, app_length. lia. }
  rewrite E in LE. cbn [snd] in LE. lia.
Qed.

(** Even if recv() fails at some point, what was handed on before is a prefix of what was sent. *)
Theorem C41_prefix : forall ro ms rbuf cut fuel, Forall sendable ms -> len rbuf = 1024 ->
  exists k, receive_many fuel ro 0 rbuf (firstn cut (snd (send_many (fun _ => Sent 0) 0 (repeat 0 1024) ms))) = (firstn k ms, false).
Proof.
  intros ro ms rbuf cut fuel F LR. rewrite send_frames; [|discriminate|exact F|vm_compute; reflexivity]. cbn [snd]. generalize 0%nat as pos.
  revert fuel rbuf LR cut. induction F as [|m ms SM F IH]; intros [|fuel] rbuf LR cut pos; try (exists 0%nat; reflexivity).
  - exists 0%nat. cbn [map concat length]. rewrite firstn_nil. cbn [receive_many firstn].
    unfold receive_message. pose proof (receive_into_spec ro pos (repeat 0 9) kWireSize [] ltac:(change (len (repeat 0 9)) with 9; unfold kWireSize; lia)) as R.
    destruct (receive_into ro pos (repeat 0 9) kWireSize []); [|reflexivity|destruct R]. destruct R as [R _]. unfold kWireSize, len in R. cbn in R. lia.
  - cbn [map concat length receive_many]. pose proof (receive_frame ro pos rbuf m (concat (map frame ms)) cut SM LR) as R.
    destruct (receive_message ro pos rbuf _) as [m' rest pos' buf'| |]; [| |destruct R].
    + destruct R as (-> & C & -> & LB). destruct (IH fuel buf' LB (cut - length (frame m))%nat pos') as (k & E). exists (S k). rewrite E. reflexivity.
    + exists 0%nat. reflexivity.
Qed.

(** A send that fails half way and is tried again (bidirectional_transport.cpp:423-451 keeps the connection) makes the
    receiver accept a message nobody sent, here an OfferService for another instance. *)
Definition interrupted (i : nat) : send_r := if (i =? 1)%nat then SendError else Sent 2000.
Theorem C41_interrupted_send_refuted : exists m, sendable m /\
  let '(results, stream) := send_many interrupted 0 (repeat 0 1024) [m; m] in
  results = [SmFailure; SmOk] /\
  exists m', m_body m' <> m_body m /\ receive_many 9 (fun _ => Got 2000) 0 (repeat 0 1024) stream = ([m'], false).
Proof.
  exists (mkM KOffer 5 (BInstance [65; 66])). split.
  - unfold sendable. cbn. split; [exact I|]. split; [split; [discriminate|]; intros X; repeat (destruct X as [X|X]; [discriminate X|]); exact X|]. split; [exact I|]. split; vm_compute; [discriminate|reflexivity].
  - vm_compute. split; [reflexivity|]. exists (mkM KOffer 5 (BInstance [2; 5])). split; [discriminate|reflexivity].
Qed.

Example C41_example :
  let ms := [mkM KOffer 4294967295 (BInstance [97; 47; 98]); mkM KAck 0 (BAck 77); mkM KProvide 3 (BProvide [99] [repeat 1 32; repeat 2 32] 4096 65536)] in
  receive_many 4 (fun i => Got (i mod 3)) 0 (repeat 0 1024) (snd (send_many (fun i => Sent (i mod 5)) 0 (repeat 9 1024) ms)) = (ms, false) /\
  receive_many 4 (fun i => Got (i mod 3)) 0 (repeat 0 1024) (firstn 30 (snd (send_many (fun i => Sent (i mod 5)) 0 (repeat 9 1024) ms))) = (firstn 2 ms, false).
Proof. vm_compute. auto. Qed.

(** * C39 for the framer: any bytes from the peer *)
Theorem C39_framer_is_safe : forall o stream buf pos, is_bytes stream -> len buf = 1024 ->
  match receive_message o pos buf stream with
  | RmMessage m rest _ buf' => body_ok (m_type m) (m_body m) /\ len buf' = 1024 /\ is_bytes rest /\
      exists n, rest = skipn n stream /\ (9 <= n)%nat /\ (n <= length stream)%nat /\ N.of_nat n <= 9 + 1024
  | RmNull => True
  | RmUB => False
  end.
Proof.
  intros o stream buf pos BY LB. unfold receive_message.
  pose proof (receive_into_spec o pos (repeat 0 9) kWireSize stream ltac:(change (len (repeat 0 9)) with 9; unfold kWireSize; lia)) as R1.
  destruct (receive_into o pos (repeat 0 9) kWireSize stream) as [hb rest pos1| |]; [|exact I|destruct R1].
  destruct R1 as (A & _ & ->). unfold kWireSize in *. change (N.to_nat 9) with 9%nat. destruct (header_of hb) as [[ty sq] ps].
  unfold kMaxPayloadSize. destruct (N.ltb_spec 1024 ps); [exact I|].
  assert (BS : forall n, is_bytes (skipn n stream)) by (intros n; rewrite <- (firstn_skipn n stream) in BY; apply is_bytes_app in BY; tauto).
  destruct (N.ltb_spec 0 ps) as [P|P].
  - pose proof (receive_into_spec o pos1 buf ps (skipn 9 stream) ltac:(lia)) as R2.
    destruct (receive_into o pos1 buf ps (skipn 9 stream)) as [buf' rest' pos'| |]; [|exact I|destruct R2].
    destruct R2 as (A2 & -> & ->). destruct (mtype_of_code ty) as [t|]; [|exact I].
    set (d := firstn (N.to_nat ps) (skipn 9 stream)). assert (LD : len d = ps) by (apply len_firstn; exact A2).
    rewrite (read_prefix d _ _ LD).
    pose proof (C39_decoder_is_safe t d ltac:(lia)) as D. assert (BD : is_bytes d).
    { specialize (BS 9%nat). rewrite <- (firstn_skipn (N.to_nat ps) (skipn 9 stream)) in BS. apply is_bytes_app in BS. tauto. }
    specialize (D BD). destruct (msg_deserialize t d) as [b| |]; [|exact I|exact D]. destruct D as (BO & _). cbn [m_type m_body].
    split; [exact BO|]. split; [rewrite len_app, LD, len_skipn; lia|]. split.
    + specialize (BS 9%nat). rewrite <- (firstn_skipn (N.to_nat ps) (skipn 9 stream)) in BS. apply is_bytes_app in BS. tauto.
    + exists (9 + N.to_nat ps)%nat. unfold len in *. rewrite skipn_length in A2. split; [|lia].
      change 9%nat with (N.to_nat 9) at 1. rewrite skipn_skipn. f_equal. lia.
  - destruct (mtype_of_code ty) as [t|]; [|exact I]. cbn [m_type m_body]. split; [destruct t; cbn; auto; split; [constructor|lia]|]. split; [exact LB|].
    split; [apply BS|]. exists 9%nat. split; [reflexivity|]. unfold len in A. lia.
Qed.

(** A header announcing no payload is accepted as a message with empty strings, which no sender can produce. *)
Example C39_empty_payload_example :
  receive_message (fun _ => Got 100) 0 (repeat 0 1024) (header_bytes 2 7 0) =
  RmMessage (mkM KOffer 7 (BInstance [])) [] 1 (repeat 0 1024) /\
  msg_serialize (BInstance []) (repeat 0 1024) = SOk 1 (repeat 0 1024) /\ msg_deserialize KOffer [0] = MdFail.
Proof. vm_compute. auto. Qed.

(** * C40 *)

(** m arrives: it is sent, and receiving what was sent gives m. *)
Definition arrives (m : message) : Prop :=
  let '(r, stream, _, _) := send_message (fun _ => Sent 0) 0 (repeat 0 1024) m in
  r = SmOk /\ exists pos buf, receive_message (fun _ => Got 0) 0 (repeat 0 1024) stream = RmMessage m [] pos buf.

(** Exactly the messages with non-empty, NUL-free strings of at most 1024 bytes do. *)
Theorem C40_arrives_partial : forall m, body_ok (m_type m) (m_body m) -> m_seq m < 4294967296 -> is_bytes (enc (members (m_body m))) ->
  (arrives m <-> strings_ok (m_body m) /\ wire_size (m_body m) <= 1024).
Proof.
  intros m BO SQ BY. assert (B1024 : len (repeat 0 1024) = 1024) by (vm_compute; reflexivity). split.
  - unfold arrives. intros A. destruct (N.le_gt_cases (wire_size (m_body m)) 1024) as [W|W].
    + split; [|exact W]. assert (LO : lists_ok (m_body m)) by (destruct (m_body m); cbn [lists_ok wire_size] in *; auto; lia).
      unfold send_message in A. rewrite (serialize_enc (m_type m)) in A by (auto; rewrite B1024; lia). pose proof (wire_pos _ _ BO) as WP.
      destruct (N.eqb_spec (wire_size (m_body m)) 0); [lia|]. rewrite u32_small in A by lia.
      set (p := enc (members (m_body m))) in *. assert (LP : len p = wire_size (m_body m)) by (unfold p; rewrite enc_len; apply wire_size_csize with (m_type m); exact BO).
      set (h := header_bytes _ _ _) in *. pose proof (send_all_spec (fun _ => Sent 0) (length h) 0 h (le_n _)) as S1. destruct (send_all (length h) (fun _ => Sent 0) 0 h) as [[r1 out1] pos1].
      destruct S1 as (_ & T1 & N1). assert (r1 = true) by (apply N1; discriminate). subst r1. rewrite (T1 eq_refl) in A.
      rewrite (read_prefix p _ _ LP) in A.
      pose proof (send_all_spec (fun _ => Sent 0) (length p) pos1 p (le_n _)) as S2. destruct (send_all (length p) (fun _ => Sent 0) pos1 p) as [[r2 out2] pos2].
      destruct S2 as (_ & T2 & N2). assert (r2 = true) by (apply N2; discriminate). subst r2. rewrite (T2 eq_refl) in A. destruct A as (_ & pos & buf & R).
      unfold receive_message in R. pose proof (receive_into_spec (fun _ => Got 0) 0 (repeat 0 9) kWireSize (h ++ p) ltac:(change (len (repeat 0 9)) with 9; unfold kWireSize; lia)) as R1.
      destruct (receive_into (fun _ => Got 0) 0 (repeat 0 9) kWireSize (h ++ p)) as [hb rest p1| |]; [|discriminate|discriminate].
      destruct R1 as (_ & -> & ->). unfold kWireSize in R. change (N.to_nat 9) with (N.to_nat (len h)) in R. rewrite firstn_len_app, skipn_len_app in R.
      change (skipn (N.to_nat (len h)) (repeat 0 9)) with (@nil N) in R. rewrite app_nil_r in R. unfold h in R at 1. rewrite header_round in R by lia.
      unfold kMaxPayloadSize in R. destruct (N.ltb_spec 1024 (wire_size (m_body m))); [lia|]. destruct (N.ltb_spec 0 (wire_size (m_body m))); [|lia].
      pose proof (receive_into_spec (fun _ => Got 0) p1 (repeat 0 1024) (wire_size (m_body m)) p ltac:(lia)) as R2.
      destruct (receive_into (fun _ => Got 0) p1 (repeat 0 1024) (wire_size (m_body m)) p) as [buf' rest' p2| |]; [|discriminate|discriminate].
      destruct R2 as (_ & -> & _). rewrite code_round in R.
      assert (FP : firstn (N.to_nat (wire_size (m_body m))) p = p) by (rewrite <- LP; unfold len; rewrite Nnat.Nat2N.id; apply firstn_all). rewrite FP in R.
      rewrite (read_prefix p _ _ LP) in R.
      pose proof (C39_decoder_is_safe (m_type m) p ltac:(lia) BY) as D. destruct (msg_deserialize (m_type m) p) as [b| |]; [|discriminate|discriminate].
      injection R as R _ _ _. destruct D as (_ & SO & _). destruct m as [mt ms mb]. cbn in *. injection R as ->. exact SO.
    + unfold send_message in A. rewrite (C38_too_small (m_type m)) in A by (auto; rewrite B1024; lia). cbn in A. destruct A as [A _]. discriminate.
  - intros [SO W]. assert (LO : lists_ok (m_body m)) by (destruct (m_body m); cbn [lists_ok wire_size] in *; auto; lia).
    assert (SM : sendable m) by (unfold sendable; auto). unfold arrives. destruct (send_frame (fun _ => Sent 0) 0 (repeat 0 1024) m SM B1024) as (pos' & buf' & -> & _); [discriminate|].
    split; [reflexivity|]. pose proof (receive_frame (fun _ => Got 0) 0 (repeat 0 1024) m [] (length (frame m)) SM B1024) as R.
    rewrite app_nil_r, firstn_all in R. destruct (receive_message (fun _ => Got 0) 0 (repeat 0 1024) (frame m)) as [m' rest pos buf| |].
    + destruct R as (-> & _ & -> & _). rewrite firstn_nil. eauto.
    + destruct R as [[i R]|R]; [discriminate|]. unfold len in R. lia.
    + destruct R.
Qed.

(** Constructible, but lost: an empty element name; more than 31 service elements. *)
Theorem C40_empty_name_refuted : exists m, body_ok (m_type m) (m_body m) /\ m_body m = BElement [97] 1 [] /\ ~ arrives m.
Proof.
  exists (mkM KRegister 1 (BElement [97] 1 [])). split; [exact I|]. split; [reflexivity|]. intros A. apply C40_arrives_partial in A; [|exact I|reflexivity|].
  - destruct A as [[_ [A _]] _]. apply A. reflexivity.
  - cbn. repeat constructor.
Qed.
Theorem C40_many_elements_refuted : forall s es, N.of_nat (length es) = 32 -> Forall (fun e => len e = 32) es -> forall seq, seq < 4294967296 ->
  is_bytes (enc (members (BProvide s es 0 0))) -> ~ arrives (mkM KProvide seq (BProvide s es 0 0)).
Proof.
  intros s es L F sq SQ BY A. apply C40_arrives_partial in A; [|cbn; split; [exact F|lia]|exact SQ|exact BY].
  destruct A as [_ A]. cbn [m_body wire_size] in A. lia.
Qed.

(** An EventInfo names the event through a string_view: length and address.  Its bytes arrive unchanged, but in the
    receiving process there is something else at that address. *)
Fixpoint le_bytes (n : nat) (x : N) : byte_list := match n with O => [] | S n => x mod 256 :: le_bytes n (x / 256) end.
Fixpoint of_le (b : byte_list) : N := match b with [] => 0 | x :: b => x + 256 * of_le b end.
Definition event_info (name_length name_address size alignment : N) : byte_list :=
  le_bytes 8 name_length ++ le_bytes 8 name_address ++ le_bytes 8 size ++ le_bytes 8 alignment.
(** the name an EventInfo denotes in a process with the given memory *)
Definition event_name (memory : N -> N) (e : byte_list) : byte_list :=
  map (fun i => memory (of_le (firstn 8 (skipn 8 e)) + N.of_nat i)) (seq 0 (N.to_nat (of_le (firstn 8 e)))).

Theorem C40_event_names_refuted : exists (sender receiver : N -> N) e m, 
  m_body m = BProvide [97] [e] 0 0 /\ sendable m /\ arrives m /\
  event_name sender e = [101; 118; 116] /\ event_name receiver e <> [101; 118; 116].
Proof.
  exists (fun a => if a =? 4096 then 101 else if a =? 4097 then 118 else if a =? 4098 then 116 else 0), (fun _ => 0), (event_info 3 4096 16 8),
    (mkM KProvide 1 (BProvide [97] [event_info 3 4096 16 8] 0 0)). split; [reflexivity|].
  assert (SO : strings_ok (BProvide [97] [event_info 3 4096 16 8] 0 0)) by (cbn; split; [discriminate|]; intros X; repeat (destruct X as [X|X]; [discriminate X|]); exact X).
  assert (BO : body_ok KProvide (BProvide [97] [event_info 3 4096 16 8] 0 0)) by (cbn; split; [constructor; [vm_compute; reflexivity|constructor]|lia]).
  split; [|split].
  - unfold sendable. cbn [m_type m_body m_seq]. split; [exact BO|]. split; [exact SO|]. split; [cbn; lia|]. split; [vm_compute; discriminate|lia].
  - set (m := mkM KProvide 1 _). assert (BY : is_bytes (enc (members (m_body m)))).
    { apply Forall_forall. intros x X. vm_compute in X. repeat (destruct X as [<-|X]; [reflexivity|]). destruct X. }
    refine (proj2 (C40_arrives_partial m BO eq_refl BY) _). split; [exact SO|vm_compute; discriminate].
  - vm_compute. split; [reflexivity|discriminate].
Qed.

Print Assumptions C38_encoder_stays_in_buffer.
Print Assumptions C38_round_trip.
Print Assumptions C38_too_small.
Print Assumptions C39_decoder_is_safe.
Print Assumptions C39_framer_is_safe.
Print Assumptions C40_arrives_partial.
Print Assumptions C40_event_names_refuted.
Print Assumptions C41_stream.
Print Assumptions C41_everything_arrives.
Print Assumptions C41_prefix.
Print Assumptions C41_interrupted_send_refuted.
