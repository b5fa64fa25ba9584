From Verif Require Import Base OffsetPtrModel ServModel ServSpec.
Open Scope nat_scope.

Lemma nd_app_r {A} (a b : list A) : NoDup (a ++ b) -> NoDup b.
Proof. induction a as [|x r IH]; cbn [app]; intros N; [exact N|]. apply IH. inversion N; assumption. Qed.

(** ** slots *)
Definition ent (x : slot) : list (ep * nat) := match fst x with Some y => [y] | None => [] end.
Definition entries (sl : list slot) : list (ep * nat) := flat_map ent sl.
Definition eps (sl : list slot) : list ep := map fst (entries sl).

Lemma ep_eqb_spec a b : reflect (a = b) (ep_eqb a b).
Proof.
  destruct a as [x|x], b as [y|y]; cbn [ep_eqb]; try (constructor; discriminate);
    destruct (Nat.eqb_spec x y); constructor; congruence.
Qed.

Lemma entries_cons x sl : entries (x :: sl) = ent x ++ entries sl.
Proof. reflexivity. Qed.

Lemma in_entries sl e fd : In (e, fd) (entries sl) <-> exists i b, nth_error sl i = Some (Some (e, fd), b).
Proof.
  unfold entries. rewrite in_flat_map. split.
  - intros ((o, b) & I & J). unfold ent in J. cbn [fst] in J. destruct o as [y|]; [|destruct J].
    destruct J as [->|[]]. apply In_nth_error in I. destruct I as (i & I). exists i, b. exact I.
  - intros (i & b & H). exists (Some (e, fd), b). split; [eapply nth_error_In; exact H|left; reflexivity].
Qed.

Lemma in_eps sl e : In e (eps sl) <-> exists fd, In (e, fd) (entries sl).
Proof.
  unfold eps. rewrite in_map_iff. split.
  - intros ((a, b) & <- & I). exists b. exact I.
  - intros (fd & I). exists (e, fd). auto.
Qed.

Lemma register_in sl e fd x : In x (entries (register sl e fd)) <-> x = (e, fd) \/ In x (entries sl).
Proof.
  induction sl as [|(o, b) r IH]; cbn [register].
  - cbn. intuition.
  - destruct o as [y|]; rewrite !entries_cons.
    + cbn [ent fst app In]. rewrite IH. intuition.
    + cbn [ent fst app In]. intuition.
Qed.

Lemma register_nd sl e fd : NoDup (eps sl) -> ~ In e (eps sl) -> NoDup (eps (register sl e fd)).
Proof.
  unfold eps. induction sl as [|(o, b) r IH]; cbn [register]; intros N I.
  - repeat constructor. intros [].
  - destruct o as [y|]; rewrite !entries_cons in *; cbn [ent fst app map] in *.
    + inversion N as [|? ? N1 N2]; subst. constructor.
      * intros J. apply in_map_iff in J. destruct J as (z & E & J). apply register_in in J. destruct J as [->|J].
        -- apply I. left. cbn [fst] in E. congruence.
        -- apply N1. apply in_map_iff. exists z. auto.
      * apply IH; [exact N2|]. intros J. apply I. right. exact J.
    + constructor; [exact I|exact N].
Qed.

Lemma register_rev sl e fd : (forall x, In x sl -> fst x = None -> snd x = false) ->
  forall x, In x (register sl e fd) -> fst x = None -> snd x = false.
Proof.
  induction sl as [|(o, b) r IH]; cbn [register]; intros H x I E.
  - destruct I as [<-|[]]. discriminate.
  - destruct o as [y|]; destruct I as [<-|I].
    + discriminate.
    + apply IH; [|exact I|exact E]. intros z J. apply H. right. exact J.
    + discriminate.
    + apply H; [right; exact I|exact E].
Qed.

Lemma clear_rev sl i : (forall x, In x sl -> fst x = None -> snd x = false) ->
  forall x, In x (clear sl i) -> fst x = None -> snd x = false.
Proof.
  revert i; induction sl as [|z r IH]; intros i H x I E; [destruct I|].
  destruct i as [|i]; cbn [clear] in I; destruct I as [<-|I].
  - reflexivity.
  - apply H; [right; exact I|exact E].
  - apply H; [left; reflexivity|exact E].
  - eapply IH; [|exact I|exact E]. intros w J. apply H. right. exact J.
Qed.

Lemma clear_nth sl i j x b : nth_error (clear sl i) j = Some (Some x, b) -> j <> i /\ nth_error sl j = Some (Some x, b).
Proof.
  revert i j; induction sl as [|z r IH]; intros i j H; [destruct i, j; discriminate|].
  destruct i as [|i], j as [|j]; cbn [clear nth_error] in *; try discriminate; auto.
  apply IH in H. destruct H. auto.
Qed.

Lemma clear_other sl i j : j <> i -> nth_error (clear sl i) j = nth_error sl j.
Proof.
  revert i j; induction sl as [|z r IH]; intros i j N; [destruct i, j; reflexivity|].
  destruct i as [|i], j as [|j]; cbn [clear nth_error]; try reflexivity; [congruence|]. apply IH. congruence.
Qed.

Lemma eps_unique sl i j e fd fd' b b' : NoDup (eps sl) ->
  nth_error sl i = Some (Some (e, fd), b) -> nth_error sl j = Some (Some (e, fd'), b') -> i = j.
Proof.
  unfold eps. revert i j; induction sl as [|(o, b0) r IH]; intros i j N A B; [destruct i; discriminate|].
  rewrite entries_cons, map_app in N. pose proof N as N2. apply nd_app_r in N2.
  destruct i as [|i], j as [|j]; cbn [nth_error] in *; auto.
  - injection A as -> ->. cbn in N. inversion N as [|? ? N1 _]; subst. exfalso. apply N1.
    apply in_map_iff. exists (e, fd'). split; [reflexivity|]. apply in_entries. eauto.
  - injection B as -> ->. cbn in N. inversion N as [|? ? N1 _]; subst. exfalso. apply N1.
    apply in_map_iff. exists (e, fd). split; [reflexivity|]. apply in_entries. eauto.
Qed.

Lemma clear_in sl i e fd b x : NoDup (eps sl) -> nth_error sl i = Some (Some (e, fd), b) ->
  (In x (entries (clear sl i)) <-> In x (entries sl) /\ fst x <> e).
Proof.
  intros N E. destruct x as (e', fd'). cbn [fst]. rewrite !in_entries. split.
  - intros (j & b' & H). apply clear_nth in H. destruct H as (NE & H). split; [eauto|].
    intros ->. apply NE. eapply eps_unique; eassumption.
  - intros ((j & b' & H) & NE). exists j, b'. rewrite clear_other; [exact H|]. intros ->. rewrite E in H. congruence.
Qed.

Lemma clear_nd sl i : NoDup (eps sl) -> NoDup (eps (clear sl i)).
Proof.
  unfold eps. revert i; induction sl as [|(o, b) r IH]; intros i N; [destruct i; exact N|].
  rewrite entries_cons, map_app in N. destruct i as [|i]; cbn [clear]; rewrite entries_cons.
  - cbn. apply nd_app_r in N. exact N.
  - rewrite map_app. destruct o as [y|]; cbn [ent fst app map] in *; [|apply IH; exact N].
    inversion N as [|? ? N1 N2]; subst. constructor; [|apply IH; exact N2].
    intros J. apply N1. apply in_map_iff in J. destruct J as ((e', fd') & Z & J). apply in_map_iff. exists (e', fd'). split; [exact Z|].
    apply in_entries in J. destruct J as (j & b' & J). apply clear_nth in J. apply in_entries. destruct J. eauto.
Qed.

Lemma find_some sl e i : find_ep sl e = Some i -> exists fd b, nth_error sl i = Some (Some (e, fd), b).
Proof.
  revert i; induction sl as [|([(e', fd)|], b) r IH]; intros i H; cbn [find_ep] in H; [discriminate| |].
  - destruct (ep_eqb_spec e' e) as [->|N]; [injection H as <-; exists fd, b; reflexivity|].
    destruct (find_ep r e) as [j|]; [|discriminate]. injection H as <-. apply IH. reflexivity.
  - destruct (find_ep r e) as [j|]; [|discriminate]. injection H as <-. apply IH. reflexivity.
Qed.

Lemma find_none sl e : find_ep sl e = None -> ~ In e (eps sl).
Proof.
  unfold eps. induction sl as [|([(e', fd)|], b) r IH]; intros H J; cbn [find_ep] in H; [exact J| |].
  - destruct (ep_eqb_spec e' e) as [->|N]; [discriminate|]. destruct (find_ep r e); [discriminate|].
    destruct J as [J|J]; [apply N; exact J|apply IH; [reflexivity|exact J]].
  - destruct (find_ep r e); [discriminate|]. apply IH; [reflexivity|exact J].
Qed.

Lemma polled_entries s sl ready : forall i, entries (polled s sl ready i) = entries sl.
Proof.
  induction sl as [|([(e, fd)|], b) r IH]; intros i; cbn [polled]; [reflexivity| |];
    rewrite !entries_cons, IH; reflexivity.
Qed.

Lemma polled_rev s sl ready : forall i x, In x (polled s sl ready i) -> fst x = None -> snd x = false.
Proof.
  induction sl as [|([(e, fd)|], b) r IH]; intros i x H E; cbn [polled] in H; [destruct H| |];
    (destruct H as [<-|H]; [|eapply IH; eassumption]); [discriminate|reflexivity].
Qed.

(** ** stack *)
Definition busy1 (f : frame) : list nat := match f with FConnect c | FDisc c => [c] | _ => [] end.
Definition busy (fs : list frame) : list nat := flat_map busy1 fs.

Lemma in_busy c fs : In c (busy fs) <-> In (FConnect c) fs \/ In (FDisc c) fs.
Proof.
  unfold busy. rewrite in_flat_map. split.
  - intros (f & I & J). destruct f; cbn in J; try destruct J as [<-|[]]; try destruct J; auto.
  - intros [I|I]; eexists; (split; [exact I|left; reflexivity]).
Qed.

(** ** log *)
Lemma life_mine c e l : mine c e = true -> life c (e :: l) = next (life c l) e.
Proof. intros H. cbn [life]. rewrite H. reflexivity. Qed.
Lemma life_other c e l : mine c e = false -> life c (e :: l) = life c l.
Proof. intros H. cbn [life]. rewrite H. reflexivity. Qed.

Notation L s c := (life c (log s)).

Record IA (s : st) : Prop := {
  v_n : forall c, L s c = PNone <-> ncon s <= c;
  v_ok : forall c, L s c <> PErr /\ L s c <> PRej;
  v_ent : forall c fd, In (EConn c, fd) (entries (slots s)) -> L s c = PAcc /\ fd = c_fd (conns s c);
  v_ent2 : forall c, L s c = PAcc -> In (EConn c, c_fd (conns s c)) (entries (slots s));
  v_lis : forall l fd, In (EListen l, fd) (entries (slots s)) -> s_fd (srv s l) = Some fd /\ ~ In (CReg l) (cmds s);
  v_nd : NoDup (eps (slots s));
  v_rev : forall x, In x (slots s) -> fst x = None -> snd x = false;
  v_prov : forall c, L s c = PProv <-> In (FConnect c) (stack s);
  v_disc : forall c, L s c = PDisc <-> In (FDisc c) (stack s);
  v_busy : NoDup (busy (stack s));
  v_alive : forall c, c_alive (conns s c) = true <-> (L s c = PProv \/ L s c = PAcc \/ L s c = PDisc);
  v_accf : forall c, c_alive (conns s c) = true -> c_acc (conns s c) = match L s c with PProv => false | _ => true end;
  v_fd : forall c, c_alive (conns s c) = true -> os s (c_fd (conns s c)) = Some (SStream (c_peer (conns s c)));
  v_os : forall fd p, os s fd = Some (SStream p) ->
    exists c, c_alive (conns s c) = true /\ c_fd (conns s c) = fd /\ c_peer (conns s c) = p;
  v_srv : forall l fd, s_fd (srv s l) = Some fd <-> os s fd = Some (SListen l);
  v_con : forall c l p, In (VConnect c l p) (log s) <-> c < ncon s /\ l = c_srv (conns s c) /\ p = c_peer (conns s c);
  v_pinj : forall c c', c < ncon s -> c' < ncon s -> c_peer (conns s c) = c_peer (conns s c') -> c = c';
  v_cmd : NoDup (cmds s);
  v_creg : forall l, In (CReg l) (cmds s) -> s_fd (srv s l) <> None;
  v_ccl : forall l, In (CClean l) (cmds s) -> s_stop (srv s l) = true /\ forall i, ~ In (FClean l i) (stack s);
  v_stp : forall l, s_stop (srv s l) = true -> s_fd (srv s l) <> None;
  v_fcl : forall l i, In (FClean l i) (stack s) -> s_stop (srv s l) = true /\
    (exists ds, stack s = map FDisc ds ++ [FClean l i]) /\
    forall j e fd b, j < i -> nth_error (slots s) j = Some (Some (e, fd), b) -> owner s e <> l;
  v_recv : forall c, In (FRecv c) (tl (stack s)) -> False;
  v_recv2 : forall c r, stack s = FRecv c :: r -> L s c = PAcc
}.

Record IB (s : st) : Prop := {
  v_used : forall c, c < ncon s -> p_used (peers s (c_peer (conns s c))) = true;
  v_bk : forall l p, In p (backlog s l) -> p_used (peers s p) = true /\ p_in (peers s p) = p_sent (peers s p) /\
    p_out (peers s p) = [] /\ forall c, c < ncon s -> c_peer (conns s c) <> p;
  v_bk2 : forall l, NoDup (backlog s l);
  v_bk3 : forall l l' p, In p (backlog s l) -> In p (backlog s l') -> l = l';
  v_msgs : forall c, c < ncon s -> exists r, p_sent (peers s (c_peer (conns s c))) = msgs c (log s) ++ r /\
    (L s c = PProv \/ L s c = PAcc -> r = p_in (peers s (c_peer (conns s c))));
  v_outs : forall c, c < ncon s -> p_out (peers s (c_peer (conns s c))) = outs c (log s)
}.

Definition IC (s : st) : Prop := forall a l b, log s = a ++ VStopped l :: b ->
  forall c p, In (VConnect c l p) b -> life c b = PGone.

Definition Inv s := IA s /\ IB s /\ IC s.

Lemma inv0 : Inv s0.
Proof.
  split; [|split].
  - constructor; cbn; intros; try tauto; try discriminate; try constructor; try (split; [intros|]; try discriminate; try tauto; lia); try lia.
    all: try (split; discriminate); try (intuition discriminate).
  - constructor; cbn; intros; try tauto; try lia. constructor.
  - intros a l b E. cbn in E. destruct a; discriminate.
Qed.
