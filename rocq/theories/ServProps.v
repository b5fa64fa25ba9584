(** C109: the message server over Unix-domain sockets calls the callbacks of each
    connection in the documented order, hands over what the client sent, sends to
    the client that is meant, and lets go of everything in StopListening. *)
From Verif Require Import Base OffsetPtrModel ServModel ServSpec ServProof ServInv ServStep ServSafe.
Open Scope nat_scope.

Lemma run_inv ls : forall s, Inv s -> legal_run s ls -> exists s', run s ls = Ok s' /\ Inv s'.
Proof.
  induction ls as [|l r IH]; intros s V LG; cbn [run]; [eauto|]. destruct LG as (A & B).
  destruct (inv_step s l V A) as (s1 & E & W). rewrite E. cbn [bind]. apply IH; [exact W|]. apply B. exact E.
Qed.

Lemma reach ls s : legal_run s0 ls -> run s0 ls = Ok s -> Inv s.
Proof. intros LG E. destruct (run_inv ls s0 inv0 LG) as (s' & F & V). congruence. Qed.

(** ** no crash
    Whatever clients send and whenever they close, whatever callbacks send,
    reject or disconnect, in any order of the engine's work: no use of a
    destroyed connection, no failed assertion.  Partial: [legal] excludes four
    things, each of which is needed (below). *)
Theorem C109_never_crashes_partial : forall ls, legal_run s0 ls -> exists s, run s0 ls = Ok s.
Proof. intros ls LG. destruct (run_inv ls s0 inv0 LG) as (s & E & _). eauto. Qed.

(** ** the callbacks of a connection come in order: connect once, then, if accepted,
    messages, then disconnect once, then nothing *)
Theorem C109_callbacks_in_order_partial : forall ls s c, legal_run s0 ls -> run s0 ls = Ok s -> life c (log s) <> PErr.
Proof. intros ls s c LG E. destruct (reach ls s LG E) as (VA & _). apply (v_ok s VA c). Qed.

Lemma life_err c : forall a b, life c b = PErr -> life c (a ++ b) = PErr.
Proof.
  induction a as [|e a IH]; intros b H; [exact H|]. cbn [app life]. rewrite (IH b H). destruct (mine c e); reflexivity.
Qed.
Lemma life_gone c : forall a b, life c b = PGone -> life c (a ++ b) <> PErr -> forall e, In e a -> mine c e = false.
Proof.
  intros a. induction a as [|x a IH]; intros b H N e [].
  - subst x. cbn [app life] in N. destruct (mine c e) eqn:M; [|reflexivity]. exfalso.
    assert (P : life c (a ++ b) = PGone \/ life c (a ++ b) = PErr).
    { clear - H. induction a as [|y a IH]; [left; exact H|]. cbn [app life]. destruct (mine c y); [|exact IH].
      right. destruct IH as [-> | ->]; reflexivity. }
    apply N. destruct P as [-> | ->]; reflexivity.
  - apply (IH b H); [|assumption]. intros X. apply N. cbn [app life]. rewrite X. destruct (mine c x); reflexivity.
Qed.

(** nothing of a connection is seen after it is gone *)
Theorem C109_gone_is_over_partial : forall ls s a b c e,
  legal_run s0 ls -> run s0 ls = Ok s -> log s = a ++ VGone c :: b -> In e a -> mine c e = false.
Proof.
  intros ls s a b c e LG E F I. pose proof (C109_callbacks_in_order_partial ls s c LG E) as N. rewrite F in N.
  assert (G : life c (VGone c :: b) = PGone).
  { cbn [life mine]. rewrite Nat.eqb_refl. assert (life c (VGone c :: b) <> PErr) as M.
    { intros X. apply N. apply life_err. exact X. }
    cbn [life mine] in M. rewrite Nat.eqb_refl in M. destruct (life c b); cbn [next] in *; congruence. }
  exact (life_gone c a _ G N e I).
Qed.

(** ** messages: what the client sent, in that order, nothing twice, nothing left out *)
Theorem C109_messages_in_order_partial : forall ls s c l p,
  legal_run s0 ls -> run s0 ls = Ok s -> In (VConnect c l p) (log s) ->
  exists rest, p_sent (peers s p) = msgs c (log s) ++ rest /\
    (life c (log s) = PAcc -> rest = p_in (peers s p)).
Proof.
  intros ls s c l p LG E I. destruct (reach ls s LG E) as (VA & VB & _). apply (v_con s VA) in I. destruct I as (LT & -> & ->).
  destruct (v_msgs s VB c LT) as (r & A & B). exists r. split; [exact A|]. intros P. apply B. auto.
Qed.

(** ** replies and notifications: the client gets what was sent on its connection, in that order, and nothing else *)
Theorem C109_sent_to_its_client_partial : forall ls s c l p,
  legal_run s0 ls -> run s0 ls = Ok s -> In (VConnect c l p) (log s) ->
  p_out (peers s p) = outs c (log s) /\ forall c' l', In (VConnect c' l' p) (log s) -> c' = c.
Proof.
  intros ls s c l p LG E I. destruct (reach ls s LG E) as (VA & VB & _). apply (v_con s VA) in I. destruct I as (LT & -> & ->).
  split; [apply (v_outs s VB); exact LT|]. intros c' l' J. apply (v_con s VA) in J. destruct J as (LT' & _ & P).
  apply (v_pinj s VA); auto.
Qed.

(** ** StopListening: when it returns, every connection of the server is gone, and nothing
    of these connections is seen any more *)
Theorem C109_stopped_is_over_partial : forall ls s a b l c p,
  legal_run s0 ls -> run s0 ls = Ok s -> log s = a ++ VStopped l :: b -> In (VConnect c l p) b ->
  life c b = PGone /\ forall e, In e a -> mine c e = false.
Proof.
  intros ls s a b l c p LG E F I. destruct (reach ls s LG E) as (VA & _ & VC).
  pose proof (VC a l b F c p I) as G. split; [exact G|].
  pose proof (C109_callbacks_in_order_partial ls s c LG E) as N. rewrite F in N.
  intros e J. apply (life_gone c a (VStopped l :: b)); [exact G|exact N|exact J].
Qed.

(** ** descriptors: an open one is that of a listening server or of a client whose connection is not gone *)
Theorem C109_no_descriptor_left_partial : forall ls s fd,
  legal_run s0 ls -> run s0 ls = Ok s ->
  match os s fd with
  | None => True
  | Some (SListen l) => s_fd (srv s l) = Some fd
  | Some (SStream p) => exists c l, In (VConnect c l p) (log s) /\
      (life c (log s) = PProv \/ life c (log s) = PAcc \/ life c (log s) = PDisc)
  end.
Proof.
  intros ls s fd LG E. destruct (reach ls s LG E) as (VA & _). destruct (os s fd) as [[l|p]|] eqn:O; [|  |exact I].
  - apply (v_srv s VA). exact O.
  - destruct (v_os s VA fd p O) as (c & A & _ & P). exists c, (c_srv (conns s c)). pose proof (proj1 (v_alive s VA c) A) as Q.
    split; [|exact Q]. apply (v_con s VA). split; [|auto].
    destruct (Nat.lt_ge_cases c (ncon s)) as [|G]; [assumption|]. apply (v_n s VA) in G. rewrite G in Q. intuition discriminate.
Qed.

Theorem C109_stop_closes_all_partial : forall ls s l b,
  legal_run s0 ls -> run s0 ls = Ok s -> log s = VStopped l :: b ->
  forall fd, match os s fd with
             | None => True
             | Some (SListen l') => s_fd (srv s l') = Some fd
             | Some (SStream p) => exists c l', l' <> l /\ In (VConnect c l' p) (log s)
             end.
Proof.
  intros ls s l b LG E F fd. pose proof (C109_no_descriptor_left_partial ls s fd LG E) as D.
  destruct (os s fd) as [[l'|p]|]; auto. destruct D as (c & l' & I & P). exists c, l'. split; [|exact I]. intros ->.
  rewrite F in I. destruct I as [I|I]; [discriminate|].
  destruct (C109_stopped_is_over_partial ls s [] b l c p LG E F I) as (G & _). rewrite F in P. cbn [life mine] in P.
  rewrite G in P. intuition discriminate.
Qed.

(** ** StopListening returns: once the engine has taken up the request, going on and
    returning from the callbacks is enough, however many connections there are *)
Definition goes_on (x : label) : Prop := x = LGo ANoCred \/ x = LRet true.

Lemma clear_length : forall sl i, length (clear sl i) = length sl.
Proof. induction sl as [|x sl IH]; intros [|i]; cbn [clear length]; auto. Qed.

Lemma clean_ends l : forall n s i, Inv s -> stack s = [FClean l i] -> length (slots s) <= i + n ->
  exists ls s', Forall goes_on ls /\ run s ls = Ok s' /\ Inv s' /\ stack s' = [] /\ exists b, log s' = VStopped l :: b.
Proof.
  assert (ST : forall s x s1 (P : st -> Prop), step s x = Ok s1 -> goes_on x ->
    (exists ls s', Forall goes_on ls /\ run s1 ls = Ok s' /\ P s') -> exists ls s', Forall goes_on ls /\ run s ls = Ok s' /\ P s').
  { intros s x s1 P E G (ls & s' & F & R & H). exists (x :: ls), s'. split; [constructor; assumption|]. cbn [run]. rewrite E. cbn [bind]. auto. }
  induction n as [|n IH]; intros s i V ES LE.
  - assert (EN : nth_error (slots s) i = None) by (apply nth_error_None; lia).
    destruct (inv_step s (LGo ANoCred) V I) as (s1 & E & W).
    apply (ST s (LGo ANoCred) s1 _ E); [left; reflexivity|]. exists [], s1. split; [constructor|]. split; [reflexivity|]. split; [exact W|].
    cbn [step] in E. unfold go in E. rewrite ES, EN in E. injection E as <-. unfold stopped. cbn.
    destruct (s_fd (srv s l)); cbn; eauto.
  - destruct (inv_step s (LGo ANoCred) V I) as (s1 & E & W).
    apply (ST s (LGo ANoCred) s1 _ E); [left; reflexivity|].
    cbn [step] in E. unfold go in E. rewrite ES in E. destruct (nth_error (slots s) i) as [(o, b)|] eqn:EN.
    + destruct o as [(e, fd)|].
      * destruct (negb (ep_ok s e)); [discriminate|]. destruct (Nat.eqb (owner s e) l).
        -- unfold unpoll in E. cbn [set_stack slots] in E. rewrite EN in E. destruct e as [l'|c].
           ++ injection E as <-. apply (IH _ (S i)); [exact W|reflexivity|]. cbn [set_slots set_stack slots]. rewrite clear_length. lia.
           ++ unfold destroy in E. cbn [set_slots set_stack conns] in E. destruct (negb (c_alive (conns s c))); [discriminate|].
              destruct (c_acc (conns s c)); injection E as <-.
              ** destruct (inv_step _ (LRet true) W) as (s2 & E2 & W2); [exact I|].
                 apply (ST _ (LRet true) s2 _ E2); [right; reflexivity|].
                 cbn [step] in E2. unfold ret in E2. cbn [tell push set_stack set_slots stack] in E2. injection E2 as <-.
                 apply (IH _ (S i)); [exact W2|reflexivity|]. cbn [finish tell push set_conn set_os set_slots set_stack slots]. rewrite clear_length. lia.
              ** apply (IH _ (S i)); [exact W|reflexivity|]. cbn [finish tell set_conn set_os set_slots set_stack slots]. rewrite clear_length. lia.
        -- injection E as <-. apply (IH _ (S i)); [exact W|reflexivity|]. cbn [set_stack slots]. lia.
      * injection E as <-. apply (IH _ (S i)); [exact W|reflexivity|]. cbn [set_stack slots]. lia.
    + injection E as <-. exists [], (stopped (set_cmds (set_stack s []) (List.filter (fun k => negb (Nat.eqb (cmd_owner k) l)) (cmds s))) l).
      split; [constructor|]. split; [reflexivity|]. split; [exact W|]. unfold stopped. cbn. destruct (s_fd (srv s l)); cbn; eauto.
Qed.

Theorem C109_stop_returns_partial : forall ls s i l,
  legal_run s0 ls -> run s0 ls = Ok s -> stack s = [] -> nth_error (cmds s) i = Some (CClean l) ->
  exists more s', Forall goes_on more /\ run s (LRun i :: more) = Ok s' /\ exists b, log s' = VStopped l :: b.
Proof.
  intros ls s i l LG E ES EN. pose proof (reach ls s LG E) as V.
  destruct (inv_step s (LRun i) V I) as (s1 & E1 & W). pose proof E1 as E2. cbn [step] in E2. rewrite ES, EN in E2. injection E2 as E2.
  destruct (clean_ends l (length (slots s1)) s1 0 W) as (more & s' & F & R & _ & _ & H); [subst s1; unfold push; cbn; rewrite ES; reflexivity|lia|].
  exists more, s'. split; [exact F|]. split; [|exact H]. cbn [run]. rewrite E1. cbn [bind]. exact R.
Qed.

(** ** what is excluded, and what is false *)

Definition all : nat -> bool := fun _ => true.
(** server 0 listens and accepts client 0; the engine is idle *)
Definition opened : list label :=
  [LListen 0 3; LRun 0; LConnect 0 0; LPoll all; LGo (AOk 4); LRet true; LGo ANoCred; LGo ANoCred].
(** the engine polls and gets to the message of client 0 *)
Definition served : list label := [LPoll all; LGo ANoCred; LGo ANoCred].

Lemma legal_cons s l r s1 : legal s l -> step s l = Ok s1 -> legal_run s1 r -> legal_run s (l :: r).
Proof. intros A E B. cbn [legal_run]. split; [exact A|]. intros s2 F. assert (s2 = s1) by congruence. subst. exact B. Qed.

Ltac legal_all :=
  repeat (first [exact I | cbn [legal_run]; split;
    [vm_compute; first [exact I | reflexivity | left; reflexivity | right; reflexivity]
    |let b := fresh in let E := fresh in intros b E; vm_compute in E; injection E as <-]]).

Lemma ok_with {A} (r : res A) (P : A -> Prop) : match r with Ok s => P s | _ => False end -> exists s, r = Ok s /\ P s.
Proof. destruct r; intros H; try contradiction. eauto. Qed.

(** A message callback calls RequestDisconnect on its connection and then returns
    an error, both of which ask for the same: the connection is destroyed inside
    RequestDisconnect, and the error makes the server use it again. *)
Theorem C109_disconnect_then_error_refuted :
  legal_run s0 (opened ++ [LSend 0 (Snd 7)] ++ served ++ [LAct (ADisc 0); LRet true]) /\
  (exists s, run s0 (opened ++ [LSend 0 (Snd 7)] ++ served ++ [LAct (ADisc 0); LRet true]) = Ok s /\ stack s = [FMsg 0; FLoop 2] /\ log s =
     [VGone 0; VDisc 0; VMsg 0 (Snd 7); VAccept 0; VConnect 0 0 0]) /\
  run s0 (opened ++ [LSend 0 (Snd 7)] ++ served ++ [LAct (ADisc 0); LRet true; LRet false]) = UB.
Proof.
  split; [unfold opened, served; cbn [app]; legal_all|]. split; [|vm_compute; reflexivity].
  refine (ok_with _ (fun s => _) _). vm_compute. split; reflexivity.
Qed.

(** The documentation says that the methods of a connection can be called from
    any thread; RequestDisconnect on a live connection ends the program there. *)
Theorem C109_disconnect_from_thread_refuted :
  (exists s, run s0 opened = Ok s /\ life 0 (log s) = PAcc) /\ run s0 (opened ++ [LThread (ADisc 0)]) = Term.
Proof. split; [|vm_compute; reflexivity]. refine (ok_with _ (fun s => _) _). vm_compute. reflexivity. Qed.

(** A failing accept ends the program: a client that opens many connections makes
    the process run out of descriptors (or a client that gives up at once lets
    accept fail). *)
Theorem C109_failed_accept_refuted :
  run s0 (opened ++ [LConnect 1 0; LPoll all; LGo AFail]) = Term.
Proof. vm_compute. reflexivity. Qed.

(** The documentation says that a further request of a client is not handed over
    before the current one is replied to: it is. *)
Theorem C109_unanswered_requests_refuted :
  legal_run s0 (opened ++ [LSend 0 (Req 1); LSend 0 (Req 2)] ++ served ++ [LRet true; LGo ANoCred] ++ served) /\
  exists s, run s0 (opened ++ [LSend 0 (Req 1); LSend 0 (Req 2)] ++ served ++ [LRet true; LGo ANoCred] ++ served) = Ok s /\
    msgs 0 (log s) = [Req 1; Req 2] /\ outs 0 (log s) = [].
Proof.
  split; [unfold opened, served; cbn [app]; legal_all|]. refine (ok_with _ (fun s => _) _). vm_compute. auto.
Qed.

(** RequestDisconnect in the connect callback, on the connection being set up, has
    no effect: the connection is accepted all the same. *)
Theorem C109_disconnect_while_connecting_refuted :
  exists s, run s0 [LListen 0 3; LRun 0; LConnect 0 0; LPoll all; LGo (AOk 4); LAct (ADisc 0); LRet true] = Ok s /\
    log s = [VAccept 0; VConnect 0 0 0].
Proof. refine (ok_with _ (fun s => _) _). vm_compute. reflexivity. Qed.

(** A client that sends part of a message and then nothing blocks the engine: as
    long as it neither goes on nor closes, no callback is called, no other client
    of any server is served, and StopListening does not return. *)
Definition quiet (e : event) : Prop := exists c m, e = VOut c m.
Definition leaves (p : nat) (x : label) : Prop := (forall it, x <> LSend p it) /\ x <> LClose p.

Definition stuck (p : nat) (s : st) : Prop := exists c r, stack s = FRecv c :: r /\ c_alive (conns s c) = true /\
  c_peer (conns s c) = p /\ os s (c_fd (conns s c)) = Some (SStream p) /\
  p_used (peers s p) = true /\ p_in (peers s p) = [] /\ p_open (peers s p) = true.

Lemma stuck_step p s l : stuck p s -> leaves p l -> legal s l -> forall s', step s l = Ok s' ->
  stuck p s' /\ exists a, log s' = a ++ log s /\ Forall quiet a.
Proof.
  intros (c & r & ES & AL & CP & OS & U & PI & PO) (L1 & L2) LG s' E.
  assert (K : forall t, stack t = stack s -> conns t = conns s -> os t = os s \/ (exists fd k, os s fd = None /\ os t = fupd (os s) fd k) ->
    peers t p = peers s p -> stuck p t).
  { intros t E1 E2 E3 E4. exists c, r. rewrite E1, E2, E4. repeat split; try assumption.
    destruct E3 as [-> | (fd & k & N & ->)]; [exact OS|]. rewrite fupd_neq; [exact OS|]. congruence. }
  assert (Q : exists a, log s = a ++ log s /\ Forall quiet a) by (exists []; auto).
  assert (SAME : stuck p s) by (apply K; auto).
  assert (SEND : forall c' m, send s c' m = Ok s' -> stuck p s' /\ exists a, log s' = a ++ log s /\ Forall quiet a).
  { intros c' m. unfold send. destruct (negb (c_alive (conns s c'))); [discriminate|].
    destruct (negb (c_acc (conns s c'))); [intros X; injection X as <-; auto|].
    destruct (os s (c_fd (conns s c'))) as [[l'|q]|]; try (intros X; injection X as <-; auto).
    destruct (p_open (peers s q)) eqn:O; intros X; injection X as <-; auto. split.
    - destruct (Nat.eq_dec p q) as [->|N].
      + exists c, r. cbn [tell set_peer stack conns os peers]. rewrite fupd_eq. cbn. repeat split; auto.
      + apply K; auto. cbn [tell set_peer peers]. apply fupd_neq. exact N.
    - exists [VOut c' m]. split; [reflexivity|]. constructor; [unfold quiet; eauto|constructor]. }
  destruct l as [l fd|l|q l|q it|q|q|i|ready|a|a|a|b]; cbn [step] in E.
  - destruct (s_fd (srv s l)); [injection E as <-; auto|]. destruct (os s fd) eqn:O; injection E as <-; [auto|].
    split; [|exact Q]. apply K; auto. right. exists fd, (Some (SListen l)). auto.
  - destruct (s_fd (srv s l)); [|injection E as <-; auto]. destruct (s_stop (srv s l)); injection E as <-; [auto|]. split; [|exact Q]. apply K; auto.
  - destruct (p_used (peers s q)) eqn:UQ; cbn [negb andb] in E; [injection E as <-; auto|].
    destruct (s_fd (srv s l)); injection E as <-; [|auto]. split; [|exact Q]. apply K; auto.
    cbn [set_backlog set_peer peers]. apply fupd_neq. congruence.
  - assert (q <> p) by (intros ->; apply (L1 it); reflexivity).
    destruct (p_used (peers s q) && p_open (peers s q)); injection E as <-; [|auto]. split; [|exact Q]. apply K; auto.
    cbn [set_peer peers]. apply fupd_neq. auto.
  - destruct (p_used (peers s q) && p_open (peers s q)) eqn:UQ; injection E as <-; [|auto]. split; [|exact Q].
    destruct (Nat.eq_dec p q) as [->|N].
    + exists c, r. cbn [set_peer stack conns os peers]. rewrite fupd_eq. cbn. repeat split; auto.
    + apply K; auto. cbn [set_peer peers]. apply fupd_neq. exact N.
  - assert (q <> p) by (intros ->; apply L2; reflexivity).
    destruct (p_used (peers s q)); injection E as <-; [|auto]. split; [|exact Q]. apply K; auto.
    cbn [set_peer peers]. apply fupd_neq. auto.
  - rewrite ES in E. injection E as <-. auto.
  - rewrite ES in E. injection E as <-. auto.
  - unfold go in E. rewrite ES in E. unfold input in E. cbn [set_stack conns os peers] in E. rewrite AL in E. cbn [negb] in E.
    rewrite OS, PI, PO in E. injection E as <-. split; [|exact Q]. apply K; auto.
  - unfold in_callback in E. rewrite ES in E. injection E as <-. auto.
  - destruct a as [c' m|c']; cbn [act_thread] in E; [apply (SEND c' m E)|destruct LG].
  - unfold ret in E. rewrite ES in E. injection E as <-. auto.
Qed.

Lemma stuck_run p ls : forall s, stuck p s -> Forall (leaves p) ls -> legal_run s ls -> forall s', run s ls = Ok s' ->
  stuck p s' /\ exists a, log s' = a ++ log s /\ Forall quiet a.
Proof.
  induction ls as [|l r IH]; intros s K F LG s' E; cbn [run] in E.
  - injection E as <-. split; [exact K|]. exists []. auto.
  - inversion F as [|? ? F1 F2]; subst. destruct LG as (G1 & G2). destruct (step s l) as [s1| |] eqn:E1; cbn [bind] in E; try discriminate.
    destruct (stuck_step p s l K F1 G1 s1 E1) as (K1 & a1 & A1 & Q1).
    destruct (IH s1 K1 F2 (G2 s1 eq_refl) s' E) as (K2 & a2 & A2 & Q2). split; [exact K2|].
    exists (a2 ++ a1). rewrite A2, A1, app_assoc. split; [reflexivity|]. apply Forall_app. auto.
Qed.

(** client 0 sends part of a message, client 1 connects and sends a whole one, StopListening is called *)
Definition blocked : list label := opened ++ [LPart 0] ++ served ++ [LConnect 1 0; LSend 1 (Snd 5); LStop 0].

Theorem C109_partial_message_blocks_refuted :
  legal_run s0 blocked /\
  exists s, run s0 blocked = Ok s /\ backlog s 0 = [1] /\ p_sent (peers s 1) = [Snd 5] /\ cmds s = [CClean 0] /\
    forall ls s', legal_run s ls -> Forall (leaves 0) ls -> run s ls = Ok s' ->
      exists a, log s' = a ++ log s /\ Forall quiet a.
Proof.
  split; [unfold blocked, opened, served; cbn [app]; legal_all|].
  destruct (run s0 blocked) as [s| |] eqn:E; [|vm_compute in E; discriminate E|vm_compute in E; discriminate E].
  exists s. vm_compute in E. injection E as E.
  assert (K : stuck 0 s /\ backlog s 0 = [1] /\ p_sent (peers s 1) = [Snd 5] /\ cmds s = [CClean 0]).
  { rewrite <- E. split; [|split; [|split]; reflexivity]. exists 0, [FLoop 2]. cbn. repeat split; reflexivity. }
  destruct K as (K & A & B & C). repeat (split; [first [reflexivity|assumption]|]). 
  intros ls s' LG F R. apply (stuck_run 0 ls s K F LG s' R).
Qed.

(** ** the theorems speak about something: two servers, two clients, messages both
    ways, one client closes, one server stops *)
Definition story : list label := opened ++
  [LListen 1 5; LRun 0; LConnect 1 1; LSend 1 (Req 8); LPoll all; LGo ANoCred; LGo ANoCred; LGo (AOk 6); LRet true;
   LGo ANoCred; LGo ANoCred; LSend 0 (Snd 7); LPoll all; LGo ANoCred; LGo ANoCred; LThread (AOut 1 3); LAct (AOut 0 4); LRet true;
   LGo ANoCred; LGo ANoCred; LAct (AOut 1 9); LRet true; LGo ANoCred; LStop 0; LRun 0;
   LGo ANoCred; LGo ANoCred; LAct (AOut 0 5); LRet true; LGo ANoCred; LGo ANoCred; LGo ANoCred].

Example C109_story : legal_run s0 story /\ exists s, run s0 story = Ok s /\ log s =
  [VStopped 0; VGone 0; VOut 0 5; VDisc 0; VOut 1 9; VMsg 1 (Req 8); VOut 0 4; VOut 1 3; VMsg 0 (Snd 7);
   VAccept 1; VConnect 1 1 1; VAccept 0; VConnect 0 0 0] /\ p_out (peers s 0) = [4; 5] /\ p_out (peers s 1) = [3; 9].
Proof.
  split; [unfold story, opened; cbn [app]; legal_all|]. refine (ok_with _ (fun s => _) _). vm_compute. repeat split; reflexivity.
Qed.

Example C109_stop_returns_applies : exists s, run s0 (opened ++ [LStop 0]) = Ok s /\ stack s = [] /\ nth_error (cmds s) 0 = Some (CClean 0).
Proof. refine (ok_with _ (fun s => _) _). vm_compute. auto. Qed.

Print Assumptions C109_never_crashes_partial.
Print Assumptions C109_callbacks_in_order_partial.
Print Assumptions C109_gone_is_over_partial.
Print Assumptions C109_messages_in_order_partial.
Print Assumptions C109_sent_to_its_client_partial.
Print Assumptions C109_stopped_is_over_partial.
Print Assumptions C109_no_descriptor_left_partial.
Print Assumptions C109_stop_closes_all_partial.
Print Assumptions C109_stop_returns_partial.
Print Assumptions C109_disconnect_then_error_refuted.
Print Assumptions C109_disconnect_from_thread_refuted.
Print Assumptions C109_failed_accept_refuted.
Print Assumptions C109_unanswered_requests_refuted.
Print Assumptions C109_disconnect_while_connecting_refuted.
Print Assumptions C109_partial_message_blocks_refuted.
