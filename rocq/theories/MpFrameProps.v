(** C49: Unix-domain message framing. *)

From Coq Require Import List Bool NArith Lia ZArith.
From Verif Require Import MpFrameModel.
Import ListNotations.
Local Open Scope N_scope.

(** ** Specification vocabulary *)

Definition message := (byte * list byte)%type.           (* code and payload *)
Definition size (m : message) : N := N.of_nat (length (snd m)).
(** sendmsg sends everything. *)
Definition complete (m : message) : sent := SCount (3 + length (snd m)).
(** recvmsg delivers what is asked for whenever the stream has it. *)
Definition patient (g : got) (st : list byte) : Prop := match g with GErr => False | GUpTo k => (length st <= k)%nat end.

(** What the sender puts on the wire for a sequence of messages. *)
Definition wire (ms : list message) : list byte :=
  flat_map (fun m => fst (send (fst m) (snd m) (complete m))) ms.

(** The receiver gets exactly the messages [ms], in order, from the stream [st], of which [r] is left. *)
Inductive receives (buffer : N) : list byte -> list message -> list byte -> Prop :=
| rc_nil r : receives buffer r [] r
| rc_cons st code m st1 ms r :
    (forall g1 g2, patient g1 st -> patient g2 st -> receive buffer g1 g2 st = (Msg code m, st1)) ->
    receives buffer st1 ms r -> receives buffer st ((code, m) :: ms) r.

(** ** Proofs *)

Lemma recvmsg_all n g st : patient g st -> recvmsg n g st = Some (firstn n st, skipn n st).
Proof.
  destruct g as [|k]; [intros []|]. cbn. intros L. 
  assert (E : Nat.min n (Nat.min k (length st)) = Nat.min n (length st)) by lia. rewrite E.
  destruct (Nat.le_ge_cases n (length st)) as [C|C].
  - rewrite Nat.min_l by exact C. reflexivity.
  - rewrite Nat.min_r by exact C. rewrite (firstn_all2 st C), (skipn_all2 st C), firstn_all, skipn_all. reflexivity.
Qed.

Lemma split16 n : n < 65536 -> n mod 256 + 256 * (n / 256) = n.
Proof. intros _. pose proof (N.div_mod n 256 ltac:(discriminate)). lia. Qed.

Lemma send_complete code m : fst (send code m (complete (code, m))) = frame code m.
Proof. cbn. rewrite firstn_all. reflexivity. Qed.

Lemma receive_frame buffer code m r g1 g2 :
  buffer < 65536 -> N.of_nat (length m) <= buffer -> patient g1 (frame code m ++ r) -> patient g2 (frame code m ++ r) ->
  receive buffer g1 g2 (frame code m ++ r) = (Msg code m, r).
Proof.
  intros B L P1 P2. unfold receive. rewrite recvmsg_all by exact P1. unfold frame. cbn [app firstn skipn header].
  assert (S : size16 (N.of_nat (length m)) = N.of_nat (length m)) by (unfold size16; apply N.mod_small; lia).
  rewrite S, split16 by lia.
  destruct (N.eqb_spec (N.of_nat (length m)) 0) as [Z|Z]; [destruct m; [reflexivity|cbn in Z; lia]|].
  unfold size16. rewrite (N.mod_small buffer) by exact B.
  destruct (N.ltb_spec buffer (N.of_nat (length m))); [lia|].
  rewrite Nnat.Nat2N.id, recvmsg_all.
  - rewrite firstn_app, Nat.sub_diag, firstn_all, firstn_O, app_nil_r, skipn_app, Nat.sub_diag, skipn_all. cbn. rewrite N.eqb_refl. reflexivity.
  - destruct g2; [exact P2|]. cbn in *. unfold frame in P2. cbn in P2. lia.
Qed.

Lemma buffer_max l : forall b, (forall e, In e l -> e <= fold_left (fun b e => if b <? e then e else b) l b) /\
  b <= fold_left (fun b e => if b <? e then e else b) l b /\
  (fold_left (fun b e => if b <? e then e else b) l b = b \/ In (fold_left (fun b e => if b <? e then e else b) l b) l).
Proof.
  induction l as [|x l IH]; intros b; cbn; [split; [intros e []|split; [lia|auto]]|].
  destruct (N.ltb_spec b x) as [C|C].
  - destruct (IH x) as [A [B D]]. split; [intros e [E|E]; [subst; exact B|auto]|]. split; [lia|]. destruct D as [D|D]; [rewrite D; auto|auto].
  - destruct (IH b) as [A [B D]]. split; [intros e [E|E]; [subst; lia|auto]|]. split; [lia|]. destruct D as [D|D]; auto.
Qed.

(** ** Theorems *)

(** A send reported as failed put nothing on the wire, and one reported as successful the whole message. Partial: only if
    sendmsg does not send a part of what it is given. *)
Theorem C49_success_means_sent_partial : forall code m o, (o = SErr \/ o = complete (code, m)) ->
  (snd (send code m o) = true <-> fst (send code m o) = wire [(code, m)]) /\
  (snd (send code m o) = false <-> fst (send code m o) = []).
Proof.
  intros code m o O. assert (W : wire [(code, m)] = frame code m).
  { unfold wire. cbn [flat_map fst snd]. rewrite send_complete. apply app_nil_r. }
  rewrite W. destruct O as [->| ->].
  - split; split; try reflexivity; discriminate.
  - rewrite send_complete. split; split; try reflexivity; discriminate.
Qed.

(** Any sequence of messages, each no larger than the size its receiver registered, arrives unchanged and in order,
    whatever follows on the stream. Partial: all registered sizes are below 65536, and sendmsg and recvmsg are not cut
    short. *)
Theorem C49_roundtrip_partial : forall endpoints mine ms rest,
  In mine endpoints -> (forall e, In e endpoints -> e < 65536) ->
  (forall m, In m ms -> size m <= mine) ->
  receives (buffer_size endpoints) (wire ms ++ rest) ms rest.
Proof.
  intros es mine ms rest I B S. destruct (buffer_max es 0) as [A [_ D]]. fold (buffer_size es) in *.
  assert (Bs : buffer_size es < 65536) by (destruct D as [D|D]; [rewrite D; lia|exact (B _ D)]).
  specialize (A mine I). induction ms as [|[c m] ms IH]; [constructor|].
  unfold wire. cbn [flat_map fst snd]. rewrite send_complete, <- app_assoc. apply rc_cons with (st1 := wire ms ++ rest).
  - intros g1 g2 P1 P2. apply receive_frame; auto. specialize (S (c, m) (or_introl eq_refl)). unfold size in S. cbn in S. lia.
  - apply IH. intros x X. apply S. right. exact X.
Qed.

(** Whatever arrives, and however recvmsg behaves, no more is delivered than the receive buffer holds, and only bytes
    that arrived. *)
Theorem C49_buffer_safe : forall buffer g1 g2 st code m r,
  receive buffer g1 g2 st = (Msg code m, r) ->
  N.of_nat (length m) <= buffer /\ exists h, (1 <= length h <= 3)%nat /\ st = h ++ m ++ r.
Proof.
  intros buffer g1 g2 st code m r. unfold receive. destruct (recvmsg 3 g1 st) as [[t r1]|] eqn:R1; [|discriminate].
  assert (T : st = t ++ r1 /\ (length t <= 3)%nat).
  { unfold recvmsg in R1. destruct g1; [discriminate|]. remember (Nat.min 3 (Nat.min k (length st))) as c. inversion R1; subst t r1.
    split; [symmetry; apply firstn_skipn|]. rewrite firstn_length. lia. }
  destruct T as [T1 T2]. destruct t as [|x t]; [discriminate|]. destruct (header (x :: t)) as [c sz].
  destruct (N.eqb_spec sz 0) as [Z|Z].
  - intros E. inversion E; subst. split; [cbn; lia|]. exists (x :: t). split; [cbn in *; lia|reflexivity].
  - destruct (N.ltb_spec (size16 buffer) sz) as [L|L]; [discriminate|].
    destruct (recvmsg (N.to_nat sz) g2 r1) as [[m' r2]|] eqn:R2; [|discriminate].
    destruct (N.eqb_spec (N.of_nat (length m')) sz) as [Y|Y]; [|discriminate]. intros E. inversion E; subst m' code r2.
    split; [rewrite Y; unfold size16 in L; pose proof (N.mod_le buffer 65536 ltac:(discriminate)); lia|].
    exists (x :: t). split; [cbn in *; lia|]. rewrite T1. f_equal.
    unfold recvmsg in R2. destruct g2; [discriminate|]. remember (Nat.min (N.to_nat sz) (Nat.min k (length r1))) as cc.
    inversion R2; subst. symmetry. apply firstn_skipn.
Qed.

(** ** Findings *)

(** A message of 65536 bytes, which a configuration can admit, arrives as an empty message; its content is then read as
    further messages. *)
Theorem C49_large_message_refuted : forall buffer code m rest g1 g2,
  m <> [] -> size (code, m) mod 65536 = 0 -> patient g1 (wire [(code, m)] ++ rest) ->
  receive buffer g1 g2 (wire [(code, m)] ++ rest) = (Msg code [], m ++ rest).
Proof.
  intros buffer code m rest g1 g2 N S P. assert (W : wire [(code, m)] = frame code m).
  { unfold wire. cbn [flat_map fst snd]. rewrite send_complete. apply app_nil_r. }
  rewrite W in *. unfold receive. rewrite recvmsg_all by exact P. unfold frame, size16. unfold size in S. cbn [snd] in S.
  rewrite S. reflexivity.
Qed.
Example C49_large_message_example : exists m : list byte, m <> [] /\ size (1, m) = 65536 /\ size (1, m) mod 65536 = 0.
Proof.
  exists (repeat 7 (N.to_nat 65536)). assert (L : size (1, repeat 7 (N.to_nat 65536)) = 65536).
  { unfold size. cbn [snd]. rewrite repeat_length, Nnat.N2Nat.id. reflexivity. }
  split; [|split; [exact L|exact (f_equal (fun x => x mod 65536) L)]]. intros E. apply (f_equal (@length _)) in E. rewrite repeat_length in E. assert (X := f_equal N.of_nat E). rewrite Nnat.N2Nat.id in X. discriminate X.
Qed.

(** Once some endpoint of the engine has registered a receive size of 65536, the engine rejects every non-empty message
    on every connection. *)
Theorem C49_large_buffer_refuted : exists endpoints,
  In 65536 endpoints /\ In 100 endpoints /\
  forall code m rest g1 g2, m <> [] -> size (code, m) <= 100 -> patient g1 (wire [(code, m)] ++ rest) ->
    receive (buffer_size endpoints) g1 g2 (wire [(code, m)] ++ rest) = (Fail EMSGSIZE, m ++ rest).
Proof.
  exists [100; 65536]. split; [cbn; auto|]. split; [cbn; auto|]. intros code m rest g1 g2 N S P.
  assert (W : wire [(code, m)] = frame code m).
  { unfold wire. cbn [flat_map fst snd]. rewrite send_complete. apply app_nil_r. }
  rewrite W in *. unfold receive. rewrite recvmsg_all by exact P. unfold frame. cbn [app firstn skipn header].
  unfold size in S. cbn [snd] in S.
  assert (E : size16 (N.of_nat (length m)) = N.of_nat (length m)) by (unfold size16; apply N.mod_small; lia).
  rewrite E, split16 by lia. destruct (N.eqb_spec (N.of_nat (length m)) 0) as [Z|Z]; [destruct m; [congruence|cbn in Z; lia]|].
  change (size16 (buffer_size [100; 65536])) with 0. destruct (N.ltb_spec 0 (N.of_nat (length m))); [reflexivity|lia].
Qed.

(** sendmsg accepts all bytes but the last; the sender reports success. The receiver takes the code of the next message
    as the missing byte. *)
Theorem C49_short_send_refuted :
  let w1 := send 1 [10; 11; 12] (SCount 5) in let w2 := send 2 [20] (complete (2, [20])) in
  snd w1 = true /\ snd w2 = true /\
  receive 100 all_of_it all_of_it (fst w1 ++ fst w2) = (Msg 1 [10; 11; 2], [1; 0; 20]).
Proof. cbn zeta. split; [reflexivity|split; reflexivity]. Qed.

(** The connection breaks after two bytes of a header: the receiver delivers an empty message nobody sent. *)
Theorem C49_short_header_refuted : forall g1 g2,
  patient g1 [1; 0] -> receive 100 g1 g2 (firstn 2 (wire [(1, repeat 9 256)])) = (Msg 1 [], []).
Proof. intros g1 g2 P. unfold receive. change (firstn 2 (wire [(1, repeat 9 256)])) with [1; 0]. rewrite recvmsg_all by exact P. reflexivity. Qed.

(** ** The hypotheses are met *)
Example C49_example :
  let ms := [(1, [10; 11; 12]); (2, []); (1, repeat 5 300)] in
  receives (buffer_size [64; 1000]) (wire ms ++ [1; 4]) ms [1; 4].
Proof.
  intros ms. apply (C49_roundtrip_partial [64; 1000] 1000); [cbn; auto| |].
  - intros e [E|[E|[]]]; subst; reflexivity.
  - intros m [E|[E|[E|[]]]]; subst; vm_compute; discriminate.
Qed.
Example C49_example_run : receive (buffer_size [64; 1000]) all_of_it all_of_it (wire [(1, [10; 11; 12]); (2, [])]) = (Msg 1 [10; 11; 12], [2; 0; 0]).
Proof. reflexivity. Qed.

Print Assumptions C49_roundtrip_partial.
Print Assumptions C49_buffer_safe.
Print Assumptions C49_large_buffer_refuted.
Print Assumptions C49_success_means_sent_partial.
