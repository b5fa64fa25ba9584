(** C68: the provider's knowledge of receive handlers; C69: every handler and interested process is
    notified. *)
From Verif Require Import Base NotifyModel.
From Coq Require Import Sorting.Sorted.

(** * Specification vocabulary *)

(** Some receive handler is registered, in this process or in another one. *)
Definition handler_registered (s : st) : Prop := hs s <> [] \/ ns s <> [].
(** No call is in progress. *)
Definition quiet (s : st) : Prop := forall t, pcs s t = Idle.
(** The event is offered: its callback is registered. *)
Definition offered (s : st) : Prop := cb s = true.

(** Executions in which every call satisfies the condition [ok]. *)
Inductive reach (ok : st -> label -> Prop) : st -> Prop :=
| reach_init : reach ok init
| reach_step s l s' : reach ok s -> ok s l -> apply s l = Some s' -> reach ok s'.

Definition any_schedule (s : st) (l : label) : Prop := True.

(** Calls that take a registration away. *)
Definition removes (o : op) : bool :=
  match o with LocalUnregister _ | RemoteUnregister _ | Outdated _ | StopOffer => true | _ => false end.
Definition removing (p : pc) : bool :=
  match p with PCb false | PRUnreg _ _ | PStop => true | _ => false end.

(** Registrations and offers may overlap in any way; a call that takes a registration away overlaps
    with no other call. *)
Definition removals_alone (s : st) (l : label) : Prop :=
  match l with
  | Begin t o => if removes o then quiet s else forall t', removing (pcs s t') = false
  | Go _ => True
  end.

(** One call at a time. *)
Definition one_at_a_time (s : st) (l : label) : Prop :=
  match l with Begin _ _ => quiet s | Go _ => True end.

Definition no_outdated (l : label) : Prop :=
  match l with Begin _ (Outdated _) => False | _ => True end.

(** * Proof of the positive part *)

Definition pending (s : st) (p : pc) : Prop :=
  match p with
  | PCb v => v = true
  | POffer1 => True
  | POffer2 local => local = true \/ ns s <> []
  | POffer3 any => any = true
  | _ => False
  end.

Definition known (s : st) : Prop :=
  cb s = true -> handler_registered s -> flag s = true \/ exists t, pending s (pcs s t).

Definition inv (s : st) : Prop :=
  ((forall t, removing (pcs s t) = false)
   /\ (forall t p, pcs s t = PRReg p true -> hs s <> [])
   /\ known s)
  \/ (exists t, (forall t', t' <> t -> pcs s t' = Idle)
      /\ match pcs s t with
         | PCb false => ~ handler_registered s
         | PRUnreg _ local => local = nonempty (hs s) /\ (cb s = true -> handler_registered s -> flag s = true)
         | PStop => cb s = false
         | _ => False
         end).

Lemma nonempty_spec l : nonempty l = true <-> l <> [].
Proof. destruct l; cbn; split; congruence. Qed.
Lemma nonempty_false l : nonempty l = false <-> l = [].
Proof. destruct l; cbn; split; congruence. Qed.

Lemma without_sub p l : without p l <> [] -> l <> [].
Proof. destruct l; [auto|discriminate]. Qed.

Lemma without_not_member p l : member p l = false -> without p l = l.
Proof.
  induction l as [|q l IH]; [reflexivity|]. cbn. intros H.
  apply orb_false_iff in H. destruct H as [A B]. unfold without in *. cbn [filter]. rewrite A. cbn [negb]. f_equal. apply IH, B.
Qed.

Lemma app_nonnil {A} (l : list A) x : l ++ [x] <> [].
Proof. destruct l; discriminate. Qed.

Lemma quiet_known s : quiet s -> known s -> cb s = true -> handler_registered s -> flag s = true.
Proof.
  intros Q K C H. destruct (K C H) as [F|(t & P)]; [exact F|]. rewrite Q in P. destruct P.
Qed.

Lemma inv_known_quiet s : inv s -> quiet s -> known s.
Proof.
  intros [(_ & _ & K)|(t & _ & M)] Q; [exact K|]. rewrite Q in M. destruct M.
Qed.

(** A removing thread is in the second mode. *)
Lemma removing_not_first s t : removing (pcs s t) = true -> inv s ->
  (forall t', t' <> t -> pcs s t' = Idle) /\
  match pcs s t with
  | PCb false => ~ handler_registered s
  | PRUnreg _ local => local = nonempty (hs s) /\ (cb s = true -> handler_registered s -> flag s = true)
  | PStop => cb s = false
  | _ => False
  end.
Proof.
  intros R [(A & _ & _)|(u & O & M)]; [rewrite A in R; discriminate|].
  destruct (Nat.eq_dec u t) as [->|NE]; [split; assumption|].
  rewrite (O t) in R by auto. discriminate.
Qed.

Local Arguments fupd : simpl never.

Lemma fu {A} (f : nat -> A) t v t' : fupd f t v t' = if Nat.eqb t' t then v else f t'.
Proof. reflexivity. Qed.

(** Pending survives changes of another thread's pc as long as the nodes do not shrink. *)
Lemma pending_mono s s' p : (ns s <> [] -> ns s' <> []) -> pending s p -> pending s' p.
Proof. intros H. destruct p; cbn; tauto. Qed.

Lemma inv_begin s t o s' :
  inv s -> removals_alone s (Begin t o) -> apply s (Begin t o) = Some s' -> inv s'.
Proof.
  intros I OK E. unfold apply in E.
  destruct (pcs s t) eqn:PT; try discriminate. injection E as <-.
  cbn [removals_alone] in OK. destruct o as [|no|p|p|p| |]; cbn [removes] in OK; cbn [start].
  - (* LocalRegister *)
    destruct I as [(A & B & K)|(u & O & M)].
    2:{ exfalso. generalize (OK u). destruct (pcs s u) as [|[]| | | | | |]; try discriminate; try destruct M. }
    left. split; [|split].
    + intros t'. cbn [pcs set_pc]. rewrite fu. destruct (Nat.eqb t' t); [|apply A].
      destruct (_ && _); reflexivity.
    + intros t' p X. cbn [hs set_pc]. apply app_nonnil.
    + unfold known. cbn [cb set_pc flag]. intros C _.
      destruct (negb (nonempty (hs s)) && negb (nonempty (ns s))) eqn:N.
      * right. exists t. cbn [pcs set_pc]. rewrite fu, Nat.eqb_refl. reflexivity.
      * assert (H : handler_registered s).
        { apply andb_false_iff in N. rewrite !negb_false_iff, !nonempty_spec in N. exact N. }
        destruct (K C H) as [F|(u & P)]; [left; exact F|right].
        exists u. cbn [pcs set_pc]. rewrite fu.
        destruct (Nat.eqb_spec u t) as [->|NE]; [rewrite PT in P; destruct P|].
        revert P. apply pending_mono. auto.
  - (* LocalUnregister *)
    assert (K := inv_known_quiet s I OK).
    destruct (member no (hs s)) eqn:Mb; [|exact I].
    destruct (negb (nonempty (without no (hs s))) && negb (nonempty (ns s))) eqn:N.
    + right. exists t. split.
      * intros t' NE. cbn [pcs set_pc]. rewrite fu. replace (Nat.eqb t' t) with false.
        apply OK. symmetry; apply Nat.eqb_neq; exact NE.
      * cbn [pcs set_pc]. rewrite fu, Nat.eqb_refl. cbn.
        apply andb_true_iff in N. rewrite !negb_true_iff, !nonempty_false in N.
        destruct N as [N1 N2]. unfold handler_registered. cbn. intros [H|H]; congruence.
    + left. split; [|split].
      * intros t'. cbn [pcs set_pc]. rewrite fu. destruct (Nat.eqb t' t); [reflexivity|rewrite OK; reflexivity].
      * intros t' p X. cbn [pcs set_pc] in X. rewrite fu in X.
        destruct (Nat.eqb t' t); [discriminate|rewrite OK in X; discriminate].
      * intros C H. left. cbn. apply (quiet_known s OK K C).
        destruct H as [H|H]; cbn in H; [left; eapply without_sub; exact H|right; exact H].
  - (* RemoteRegister *)
    destruct I as [(A & B & K)|(u & O & M)].
    2:{ exfalso. generalize (OK u). destruct (pcs s u) as [|[]| | | | | |]; try discriminate; try destruct M. }
    left. split; [|split].
    + intros t'. cbn [pcs set_pc]. rewrite fu. destruct (Nat.eqb t' t); [reflexivity|apply A].
    + intros t' q X. cbn [pcs set_pc hs] in *. rewrite fu in X.
      destruct (Nat.eqb t' t); [injection X as _ X; apply nonempty_spec; exact X|eapply B; exact X].
    + intros C H. destruct (K C H) as [F|(u & P)]; [left; exact F|right].
      exists u. cbn [pcs set_pc]. rewrite fu.
      destruct (Nat.eqb_spec u t) as [->|NE]; [rewrite PT in P; destruct P|exact P].
  - (* RemoteUnregister *)
    assert (K := inv_known_quiet s I OK). right. exists t. split.
    + intros t' NE. cbn [pcs set_pc]. rewrite fu. replace (Nat.eqb t' t) with false.
      apply OK. symmetry; apply Nat.eqb_neq; exact NE.
    + cbn [pcs set_pc]. rewrite fu, Nat.eqb_refl. split; [reflexivity|].
      exact (quiet_known s OK K).
  - (* Outdated *)
    assert (K := inv_known_quiet s I OK). left. split; [|split].
    + intros t'. cbn. rewrite OK. reflexivity.
    + intros t' q X. cbn in X. rewrite OK in X. discriminate.
    + intros C H. left. cbn. apply (quiet_known s OK K C).
      destruct H as [H|H]; cbn in H; [left; exact H|right; eapply without_sub; exact H].
  - (* Offer *)
    destruct I as [(A & B & K)|(u & O & M)].
    2:{ exfalso. generalize (OK u). destruct (pcs s u) as [|[]| | | | | |]; try discriminate; try destruct M. }
    left. split; [|split].
    + intros t'. cbn [pcs set_pc]. rewrite fu. destruct (Nat.eqb t' t); [reflexivity|apply A].
    + intros t' q X. cbn [pcs set_pc hs] in *. rewrite fu in X.
      destruct (Nat.eqb t' t); [discriminate|eapply B; exact X].
    + intros C H. right. exists t. cbn [pcs set_pc]. rewrite fu, Nat.eqb_refl. exact Logic.I.
  - (* StopOffer *)
    right. exists t. split.
    + intros t' NE. cbn [pcs set_pc]. rewrite fu. replace (Nat.eqb t' t) with false.
      apply OK. symmetry; apply Nat.eqb_neq; exact NE.
    + cbn [pcs set_pc]. rewrite fu, Nat.eqb_refl. reflexivity.
Qed.

Lemma inv_go s t s' : inv s -> apply s (Go t) = Some s' -> inv s'.
Proof.
  intros I E. unfold apply in E.
  assert (E' : s' = step s t /\ pcs s t <> Idle).
  { destruct (pcs s t) eqn:PT; try discriminate; injection E as <-; split; congruence. }
  destruct E' as [-> NI]. clear E. unfold step.
  destruct (pcs s t) as [|v|p local|p local| |local|any|] eqn:PT; [congruence|..].
  - (* PCb *)
    destruct v.
    + destruct I as [(A & B & K)|(u & O & M)].
      2:{ exfalso. destruct (Nat.eq_dec u t) as [->|NE]; [rewrite PT in M; exact M|].
          rewrite (O t) in PT by auto. discriminate. }
      left. split; [|split].
      * intros t'. cbn [pcs set_pc]. rewrite fu. destruct (Nat.eqb t' t); [reflexivity|apply A].
      * intros t' q X. cbn [pcs set_pc hs] in *. rewrite fu in X.
        destruct (Nat.eqb t' t); [discriminate|eapply B; exact X].
      * intros C H. cbn in C. left. cbn. rewrite C. reflexivity.
    + destruct (removing_not_first s t ltac:(rewrite PT; reflexivity) I) as [O M]. rewrite PT in M.
      left. split; [|split].
      * intros t'. cbn [pcs set_pc]. rewrite fu.
        destruct (Nat.eqb_spec t' t) as [|NE]; [reflexivity|rewrite (O t' NE); reflexivity].
      * intros t' q X. cbn [pcs set_pc] in X. rewrite fu in X.
        destruct (Nat.eqb_spec t' t) as [|NE]; [discriminate|rewrite (O t' NE) in X; discriminate].
      * intros C H. exfalso. apply M. exact H.
  - (* PRReg *)
    destruct I as [(A & B & K)|(u & O & M)].
    2:{ exfalso. destruct (Nat.eq_dec u t) as [->|NE]; [rewrite PT in M; exact M|].
        rewrite (O t) in PT by auto. discriminate. }
    set (n := if member p (ns s) then ns s else ns s ++ [p]).
    assert (Nn : ns s <> [] -> n <> []).
    { unfold n. destruct (member p (ns s)); [auto|intros _; apply app_nonnil]. }
    left. split; [|split].
    + intros t'. cbn [pcs set_pc]. rewrite fu. destruct (Nat.eqb t' t); [|apply A].
      destruct (_ && _); reflexivity.
    + intros t' q X. cbn [pcs set_pc hs] in *. rewrite fu in X.
      destruct (Nat.eqb t' t); [destruct (_ && _); discriminate|eapply B; exact X].
    + intros C H. cbn [cb set_pc] in C.
      destruct (negb (nonempty (ns s)) && negb local) eqn:N.
      * right. exists t. cbn [pcs set_pc]. rewrite fu, Nat.eqb_refl. reflexivity.
      * assert (H' : handler_registered s).
        { apply andb_false_iff in N. rewrite !negb_false_iff, nonempty_spec in N.
          destruct N as [N|N]; [right; exact N|]. left. subst local. eapply B; exact PT. }
        destruct (K C H') as [F|(u & P)]; [left; exact F|right].
        exists u. cbn [pcs set_pc]. rewrite fu.
        destruct (Nat.eqb_spec u t) as [->|NE]; [rewrite PT in P; destruct P|].
        revert P. apply pending_mono. exact Nn.
  - (* PRUnreg *)
    destruct (removing_not_first s t ltac:(rewrite PT; reflexivity) I) as [O M]. rewrite PT in M.
    destruct M as [L F].
    destruct (member p (ns s) && negb (nonempty (without p (ns s))) && negb local) eqn:N.
    + right. exists t. split.
      * intros t' NE. cbn [pcs set_pc]. rewrite fu. replace (Nat.eqb t' t) with false.
        apply O, NE. symmetry; apply Nat.eqb_neq; exact NE.
      * cbn [pcs set_pc]. rewrite fu, Nat.eqb_refl. cbn.
        apply andb_true_iff in N. destruct N as [N1 N2]. apply andb_true_iff in N1.
        destruct N1 as [_ N1]. rewrite negb_true_iff, nonempty_false in N1.
        rewrite negb_true_iff in N2. subst local. rewrite nonempty_false in N2.
        unfold handler_registered. cbn. intros [H|H]; congruence.
    + left. split; [|split].
      * intros t'. cbn [pcs set_pc]. rewrite fu.
        destruct (Nat.eqb_spec t' t) as [|NE]; [reflexivity|rewrite (O t' NE); reflexivity].
      * intros t' q X. cbn [pcs set_pc] in X. rewrite fu in X.
        destruct (Nat.eqb_spec t' t) as [|NE]; [discriminate|rewrite (O t' NE) in X; discriminate].
      * intros C H. left. cbn. apply F; [exact C|].
        destruct H as [H|H]; cbn in H; [left; exact H|right; eapply without_sub; exact H].
  - (* POffer1 *)
    destruct I as [(A & B & K)|(u & O & M)].
    2:{ exfalso. destruct (Nat.eq_dec u t) as [->|NE]; [rewrite PT in M; exact M|].
        rewrite (O t) in PT by auto. discriminate. }
    left. split; [|split].
    + intros t'. cbn [pcs set_pc]. rewrite fu. destruct (Nat.eqb t' t); [reflexivity|apply A].
    + intros t' q X. cbn [pcs set_pc hs] in *. rewrite fu in X.
      destruct (Nat.eqb t' t); [discriminate|eapply B; exact X].
    + intros C H. right. exists t. cbn [pcs set_pc]. rewrite fu, Nat.eqb_refl.
      cbn [pending]. destruct H as [H|H]; cbn in H; [left; apply nonempty_spec; exact H|right; exact H].
  - (* POffer2 *)
    destruct I as [(A & B & K)|(u & O & M)].
    2:{ exfalso. destruct (Nat.eq_dec u t) as [->|NE]; [rewrite PT in M; exact M|].
        rewrite (O t) in PT by auto. discriminate. }
    left. split; [|split].
    + intros t'. cbn [pcs set_pc]. rewrite fu. destruct (Nat.eqb t' t); [reflexivity|apply A].
    + intros t' q X. cbn [pcs set_pc hs] in *. rewrite fu in X.
      destruct (Nat.eqb t' t); [discriminate|eapply B; exact X].
    + intros C H. destruct (K C H) as [F|(u & P)]; [left; exact F|right].
      exists u. cbn [pcs set_pc]. rewrite fu.
      destruct (Nat.eqb_spec u t) as [->|NE]; [|exact P].
      rewrite PT in P. cbn [pending] in P |- *. rewrite orb_true_iff, nonempty_spec. exact P.
  - (* POffer3 *)
    destruct I as [(A & B & K)|(u & O & M)].
    2:{ exfalso. destruct (Nat.eq_dec u t) as [->|NE]; [rewrite PT in M; exact M|].
        rewrite (O t) in PT by auto. discriminate. }
    left. split; [|split].
    + intros t'. cbn [pcs set_pc]. rewrite fu. destruct (Nat.eqb t' t); [reflexivity|apply A].
    + intros t' q X. cbn [pcs set_pc hs] in *. rewrite fu in X.
      destruct (Nat.eqb t' t); [discriminate|eapply B; exact X].
    + intros C H. cbn [cb set_pc flag] in *.
      destruct (K C H) as [F|(u & P)].
      * left. rewrite F. destruct (any && cb s); reflexivity.
      * destruct (Nat.eqb_spec u t) as [->|NE].
        { rewrite PT in P. cbn in P. subst any. left. rewrite C. reflexivity. }
        right. exists u. cbn [pcs set_pc]. rewrite fu.
        replace (Nat.eqb u t) with false by (symmetry; apply Nat.eqb_neq; exact NE). exact P.
  - (* PStop *)
    destruct (removing_not_first s t ltac:(rewrite PT; reflexivity) I) as [O M]. rewrite PT in M.
    left. split; [|split].
    * intros t'. cbn [pcs set_pc]. rewrite fu.
      destruct (Nat.eqb_spec t' t) as [|NE]; [reflexivity|rewrite (O t' NE); reflexivity].
    * intros t' q X. cbn [pcs set_pc] in X. rewrite fu in X.
      destruct (Nat.eqb_spec t' t) as [|NE]; [discriminate|rewrite (O t' NE) in X; discriminate].
    * intros C H. cbn in C. congruence.
Qed.

Lemma reach_inv s : reach removals_alone s -> inv s.
Proof.
  induction 1 as [|s l s' R IH OK E].
  - left. split; [reflexivity|]. split; [discriminate|]. intros C. discriminate C.
  - destruct l as [t o|t]; [eapply inv_begin; eassumption|eapply inv_go; eassumption].
Qed.

(** C68: whenever no call is in progress, the provider of an offered event notifies on Send if any
    receive handler is registered - for every schedule in which registrations and offers overlap
    arbitrarily but calls that take a registration away run alone. The full statement, for every
    schedule, is refuted below. *)
Theorem C68_send_notifies_partial :
  forall s, reach removals_alone s -> quiet s -> offered s -> handler_registered s ->
  send_notifies s = true.
Proof.
  intros s R Q C H. apply reach_inv in R.
  exact (quiet_known s Q (inv_known_quiet s R Q) C H).
Qed.

(** Converse: with one call at a time and no process reported as outdated, Send does not notify
    when there is no handler. *)
Lemma seq_no_needless s :
  reach (fun s l => one_at_a_time s l /\ no_outdated l) s ->
  exists t, (forall t', t' <> t -> pcs s t' = Idle)
  /\ match pcs s t with
     | PCb false => ~ handler_registered s
     | PCb true => handler_registered s
     | PRReg _ l | PRUnreg _ l => l = nonempty (hs s) /\ (flag s = true -> handler_registered s)
     | POffer2 l => (l = true -> hs s <> []) /\ (flag s = true -> handler_registered s)
     | POffer3 a => (a = true -> handler_registered s) /\ (flag s = true -> handler_registered s)
     | PStop => True
     | _ => flag s = true -> handler_registered s
     end
  /\ (cb s = false -> flag s = false \/ pcs s t = PStop).
Proof.
  induction 1 as [|s l s' R IH OK E].
  - exists 0. split; [reflexivity|]. split; [discriminate|]. auto.
  - destruct OK as [OK NO]. destruct IH as (u & O & M & NC). destruct l as [t o|t]; cbn in OK.
    + unfold apply in E. destruct (pcs s t) eqn:PT; try discriminate. injection E as <-.
      rewrite OK in M, NC.
      assert (NC' : cb s = false -> flag s = false) by (intros X; destruct (NC X); congruence).
      assert (O' : forall p t', t' <> t -> fupd (pcs s) t p t' = Idle).
      { intros p t' NE. rewrite fupd_neq by exact NE. apply OK. }
      destruct o as [|no|p|p|p| |]; cbn [start].
      * exists t. split; [intros; cbn; apply O'; assumption|]. cbn [pcs set_pc cb flag]. rewrite fupd_eq. split; [|auto].
        destruct (_ && _); [left|intros _; left]; cbn; apply app_nonnil.
      * destruct (member no (hs s)) eqn:Mb.
        2:{ exists t. split; [auto|]. rewrite PT. split; [exact M|auto]. }
        exists t. split; [intros; cbn; apply O'; assumption|]. cbn [pcs set_pc cb flag]. rewrite fupd_eq. split; [|auto].
        destruct (negb (nonempty (without no (hs s))) && negb (nonempty (ns s))) eqn:N.
        { apply andb_true_iff in N. rewrite !negb_true_iff, !nonempty_false in N.
          destruct N. unfold handler_registered; cbn. intros [X|X]; congruence. }
        intros _. apply andb_false_iff in N. rewrite !negb_false_iff, !nonempty_spec in N. exact N.
      * exists t. split; [intros; cbn; apply O'; assumption|]. cbn [pcs set_pc cb flag]. rewrite fupd_eq. split; [|auto].
        split; [reflexivity|exact M].
      * exists t. split; [intros; cbn; apply O'; assumption|]. cbn [pcs set_pc cb flag]. rewrite fupd_eq. split; [|auto].
        split; [reflexivity|exact M].
      * destruct NO.
      * exists t. split; [intros; cbn; apply O'; assumption|]. cbn [pcs set_pc cb flag]. rewrite fupd_eq. split; [|discriminate]. exact M.
      * exists t. split; [intros; cbn; apply O'; assumption|]. cbn [pcs set_pc cb flag]. rewrite fupd_eq. split; [|auto]. exact Logic.I.
    + unfold apply in E.
      assert (E' : s' = step s t /\ pcs s t <> Idle).
      { destruct (pcs s t) eqn:PT; try discriminate; injection E as <-; split; congruence. }
      destruct E' as [-> NI]. clear E.
      assert (UT : u = t).
      { destruct (Nat.eq_dec u t) as [X|NE]; [exact X|]. exfalso. apply NI, O. auto. }
      subst u. unfold step. exists t. destruct (pcs s t) as [|v|p local|p local| |local|any|] eqn:PT;
        [congruence|..];
        (split; [intros t' NE; cbn [pcs set_pc]; rewrite fupd_neq by exact NE; apply O, NE|]);
        cbn [hs ns cb flag pcs set_pc]; rewrite ?fupd_eq; cbn [hs ns cb flag pcs set_pc];
        (split; [|intros X; rewrite ?X; left; try reflexivity;
                  try (destruct (NC X) as [Y|Y]; [|discriminate Y]; rewrite ?Y, ?andb_false_r; reflexivity)]).
      * destruct v; [intros _; exact M|].
        destruct (cb s) eqn:Cb; [discriminate|]. intros F. exfalso. cbn in F.
        destruct (NC eq_refl) as [Y|Y]; [congruence|discriminate Y].
      * destruct M as [L F].
        destruct (negb (nonempty (ns s)) && negb local) eqn:N.
        { right. cbn. destruct (member p (ns s)) eqn:Mb; [|apply app_nonnil].
          destruct (ns s); [discriminate Mb|discriminate]. }
        intros _. right. cbn. destruct (member p (ns s)) eqn:Mb; [|apply app_nonnil].
        destruct (ns s); [discriminate Mb|discriminate].
      * destruct M as [L F].
        destruct (member p (ns s) && negb (nonempty (without p (ns s))) && negb local) eqn:N.
        { apply andb_true_iff in N. destruct N as [N1 N2]. apply andb_true_iff in N1.
          destruct N1 as [_ N1]. rewrite negb_true_iff, nonempty_false in N1.
          rewrite negb_true_iff in N2. subst local. rewrite nonempty_false in N2.
          unfold handler_registered. cbn. intros [H|H]; congruence. }
        intros X. apply andb_false_iff in N. rewrite negb_false_iff in N. destruct N as [N|N].
        { apply andb_false_iff in N. destruct N as [N|N].
          - rewrite (without_not_member _ _ N). exact (F X).
          - rewrite negb_false_iff, nonempty_spec in N. right. exact N. }
        left. cbn. apply nonempty_spec. congruence.
      * split; [apply nonempty_spec|exact M].
      * destruct M as [L F]. split; [|exact F]. rewrite orb_true_iff, nonempty_spec.
        intros [X|X]; [left; apply L, X|right; exact X].
      * destruct M as [L F]. destruct any; cbn; [intros _; apply L; reflexivity|exact F].
      * discriminate.
Qed.

Theorem C68_no_needless_notification_partial :
  forall s, reach (fun s l => one_at_a_time s l /\ no_outdated l) s -> quiet s ->
  send_notifies s = true -> handler_registered s.
Proof.
  intros s R Q. destruct (seq_no_needless s R) as (t & _ & M & _). rewrite Q in M. exact M.
Qed.

(** * Refutation of the full statement *)

Fixpoint run (s : st) (ls : list label) : option st :=
  match ls with
  | [] => Some s
  | l :: r => match apply s l with Some s' => run s' r | None => None end
  end.

Lemma run_reach ls s s' : reach any_schedule s -> run s ls = Some s' -> reach any_schedule s'.
Proof.
  revert s. induction ls as [|l ls IH]; intros s R E; [injection E as <-; exact R|].
  cbn in E. destruct (apply s l) as [s1|] eqn:A; [|discriminate].
  apply (IH s1); [|exact E]. exact (reach_step _ s l s1 R Logic.I A).
Qed.

Lemma quiet_of_bound s n : (forall t, t < n -> pcs s t = Idle) -> (forall t, n <= t -> pcs s t = Idle) -> quiet s.
Proof. intros A B t. destruct (Nat.lt_ge_cases t n); auto. Qed.

(** Two threads of the provider's process: thread 1 unsets the last receive handler while thread 2
    sets one. Thread 1's late callback overwrites the flag thread 2 has set. *)
Definition local_race : list label :=
  [Begin 0 Offer; Go 0; Go 0; Go 0;
   Begin 1 LocalRegister; Go 1;
   Begin 1 (LocalUnregister 0); Begin 2 LocalRegister; Go 2; Go 1].

(** A consumer process registers (message thread 0) while thread 1 of the provider's process unsets
    the last local handler: the message handler saw the local handler and therefore leaves the flag
    alone. *)
Definition remote_race : list label :=
  [Begin 3 Offer; Go 3; Go 3; Go 3;
   Begin 1 LocalRegister; Go 1;
   Begin 0 (RemoteRegister 77); Begin 1 (LocalUnregister 0); Go 1; Go 0].

Ltac quiet_run := intros t; do 4 (destruct t as [|t]; [reflexivity|]); reflexivity.

Theorem C68_local_race_refuted :
  exists s, reach any_schedule s /\ quiet s /\ offered s /\ hs s <> [] /\ send_notifies s = false.
Proof.
  destruct (run init local_race) as [s|] eqn:E; [|discriminate E].
  exists s. split; [exact (run_reach _ _ _ (reach_init _) E)|].
  vm_compute in E. injection E as <-. split; [quiet_run|]. split; [reflexivity|].
  split; [discriminate|reflexivity].
Qed.

Theorem C68_remote_race_refuted :
  exists s, reach any_schedule s /\ quiet s /\ offered s /\ ns s = [77] /\ send_notifies s = false.
Proof.
  destruct (run init remote_race) as [s|] eqn:E; [|discriminate E].
  exists s. split; [exact (run_reach _ _ _ (reach_init _) E)|].
  vm_compute in E. injection E as <-. split; [quiet_run|]. repeat split.
Qed.

(** The loss is permanent: a second registration does not repair it, because it is not the first. *)
Theorem C68_not_repaired_refuted :
  exists s s', reach any_schedule s /\ quiet s /\ send_notifies s = false
    /\ run s [Begin 2 LocalRegister; Begin 0 (RemoteRegister 78); Go 0] = Some s'
    /\ quiet s' /\ offered s' /\ length (hs s') = 2 /\ ns s' = [78] /\ send_notifies s' = false.
Proof.
  destruct (run init local_race) as [s|] eqn:E; [|discriminate E].
  destruct (run s [Begin 2 LocalRegister; Begin 0 (RemoteRegister 78); Go 0]) as [s'|] eqn:E'.
  2:{ vm_compute in E. injection E as <-. vm_compute in E'. discriminate E'. }
  exists s, s'. split; [exact (run_reach _ _ _ (reach_init _) E)|].
  vm_compute in E. injection E as <-. split; [quiet_run|]. split; [reflexivity|].
  split; [exact E'|]. vm_compute in E'. injection E' as <-. split; [quiet_run|]. repeat split.
Qed.

(** Any process can make a provider forget another process: the outdated-process message names an
    arbitrary process, and the sender is not checked. *)
Theorem C68_outdated_message_refuted :
  exists s s', reach any_schedule s /\ quiet s /\ ns s = [77]
    /\ apply s (Begin 0 (Outdated 77)) = Some s' /\ quiet s' /\ ~ handler_registered s'
    /\ send_notifies s' = true.
Proof.
  destruct (run init [Begin 3 Offer; Go 3; Go 3; Go 3; Begin 0 (RemoteRegister 77); Go 0; Go 0])
    as [s|] eqn:E; [|discriminate E].
  destruct (apply s (Begin 0 (Outdated 77))) as [s'|] eqn:E'.
  2:{ vm_compute in E. injection E as <-. vm_compute in E'. discriminate E'. }
  exists s, s'. split; [exact (run_reach _ _ _ (reach_init _) E)|].
  vm_compute in E. injection E as <-. split; [quiet_run|]. split; [reflexivity|].
  split; [exact E'|]. vm_compute in E'. injection E' as <-. split; [quiet_run|].
  split; [intros [H|H]; apply H; reflexivity|reflexivity].
Qed.

(** Non-vacuity: a schedule with overlapping registrations and offer that meets the hypotheses. *)
Fixpoint all_idle_upto (s : st) (n : nat) : bool :=
  match n with O => true | S k => match pcs s k with Idle => all_idle_upto s k | _ => false end end.

Example C68_example :
  exists s, reach removals_alone s /\ quiet s /\ offered s /\ handler_registered s.
Proof.
  eexists. split.
  - eapply reach_step with (l := Go 1); [|exact Logic.I|].
    eapply reach_step with (l := Go 2); [|exact Logic.I|].
    eapply reach_step with (l := Go 1); [|exact Logic.I|].
    eapply reach_step with (l := Begin 2 LocalRegister); [| |].
    eapply reach_step with (l := Go 1); [|exact Logic.I|].
    eapply reach_step with (l := Begin 1 Offer); [apply reach_init| |reflexivity].
    all: try reflexivity.
    all: intros t; do 3 (destruct t as [|t]; [reflexivity|]); reflexivity.
  - split; [intros t; do 3 (destruct t as [|t]; [reflexivity|]); reflexivity|].
    split; [reflexivity|left; discriminate].
Qed.

(** * C69: the notification itself *)

(** Every handler whose owner exists is called, once and in registration order, if there are at
    most five handlers for the event in the process. *)
Theorem C69_local_handlers_partial :
  forall handlers, length handlers <= 5 ->
  notify_locally handlers = map fst (filter snd handlers).
Proof.
  intros handlers L. unfold notify_locally, max_handlers.
  rewrite firstn_all2 by exact L. reflexivity.
Qed.

(** The sixth handler of an event in one process is never called. *)
Theorem C69_sixth_handler_refuted :
  exists handlers h, In (h, true) handlers /\ ~ In h (notify_locally handlers)
    /\ length handlers = 6.
Proof.
  exists [(1, true); (2, true); (3, true); (4, true); (5, true); (6, true)], 6.
  split; [cbn; auto 10|]. split; [|reflexivity]. cbn. intuition discriminate.
Qed.

(** More than the five first are never called, whatever is registered. *)
Theorem C69_at_most_five :
  forall handlers, length (notify_locally handlers) <= 5.
Proof.
  intros handlers. unfold notify_locally, max_handlers. rewrite map_length.
  transitivity (length (firstn 5 handlers)); [|rewrite firstn_length; lia].
  induction (firstn 5 handlers) as [|x l IH]; [auto|]. cbn. destruct (snd x); cbn; lia.
Qed.

(** Remote processes. The set is a std::set of process ids, i.e. strictly ascending, and may change
    between two copies. *)
Definition ascending : list Z -> Prop := StronglySorted Z.lt.

Lemma asc_filter f l : ascending l -> ascending (filter f l).
Proof.
  induction 1 as [|x l S IH F]; [constructor|]. cbn. destruct (f x); [|exact IH].
  constructor; [exact IH|]. rewrite Forall_forall in *. intros y Hy. apply F.
  apply filter_In in Hy. tauto.
Qed.

Lemma firstn_subset {A} n (l : list A) x : In x (firstn n l) -> In x l.
Proof.
  revert n. induction l as [|z l IH]; intros [|n]; cbn; [tauto|tauto|tauto|].
  intros [->|H]; [left; reflexivity|right; eapply IH; exact H].
Qed.

Lemma asc_firstn n l : ascending l -> ascending (firstn n l).
Proof.
  intros S. revert n. induction S as [|x l S IH F]; intros [|n]; try constructor.
  - apply IH.
  - rewrite Forall_forall in *. intros y Hy. apply F. exact (firstn_subset _ _ _ Hy).
Qed.

Lemma last_In (l : list Z) d : l <> [] -> In (last l d) l.
Proof.
  intros H. destruct (exists_last H) as (l' & a & ->). rewrite last_last.
  apply in_or_app. right. left. reflexivity.
Qed.

Lemma asc_last_max l d x : ascending l -> In x l -> (x <= last l d)%Z.
Proof.
  induction 1 as [|y l S IH F]; [intros []|]. intros [->|H].
  - destruct l as [|z l]; [cbn; lia|]. change (x <= last (z :: l) d)%Z.
    rewrite Forall_forall in F. assert (In (last (z :: l) d) (z :: l)) by (apply last_In; discriminate).
    apply F in H. lia.
  - destruct l as [|z l]; [destruct H|]. change (x <= last (z :: l) d)%Z. apply IH, H.
Qed.

Lemma asc_app a b : ascending a -> ascending b -> (forall x y, In x a -> In y b -> (x < y)%Z) ->
  ascending (a ++ b).
Proof.
  induction 1 as [|x a S IH F]; intros B C; [exact B|]. cbn. constructor.
  - apply IH; [exact B|]. intros; apply C; [right|]; assumption.
  - apply Forall_app. split; [exact F|]. rewrite Forall_forall. intros y Hy. apply C; [left; reflexivity|exact Hy].
Qed.

(** What a copy delivers. *)
Lemma copy_facts set start :
  ascending set ->
  let '(ids, further) := copy_ids set start in
  ascending ids
  /\ (forall p, In p ids -> In p set /\ (start <= p)%Z)
  /\ (further = false -> forall p, In p set -> (start <= p)%Z -> In p ids)
  /\ (further = true -> ids <> []
       /\ forall p, In p set -> (start <= p)%Z -> (p <= last ids 0%Z)%Z -> In p ids).
Proof.
  intros S. unfold copy_ids. set (from := filter (fun p => Z.leb start p) set).
  assert (Sf : ascending from) by (apply asc_filter, S).
  assert (If : forall p, In p from <-> In p set /\ (start <= p)%Z).
  { intros p. unfold from. rewrite filter_In, Z.leb_le. reflexivity. }
  split; [apply asc_firstn, Sf|]. split; [|split].
  - intros p H. apply If. exact (firstn_subset _ from p H).
  - intros F p H1 H2. apply Nat.ltb_ge in F. rewrite firstn_all2 by exact F. apply If. tauto.
  - intros F. apply Nat.ltb_lt in F. split.
    + destruct from; [cbn in F; lia|discriminate].
    + intros p H1 H2 H3.
      assert (H : In p from) by (apply If; tauto).
      rewrite <- (firstn_skipn buffer_size from) in H. apply in_app_or in H.
      destruct H as [H|H]; [exact H|exfalso].
      assert (NE : firstn buffer_size from <> []) by (destruct from; [cbn in F; lia|discriminate]).
      assert (L := last_In _ 0%Z NE).
      assert (X : forall a b, ascending (a ++ b) -> forall x y, In x a -> In y b -> (x < y)%Z).
      { clear. induction a as [|z a IH]; intros b S x y Hx Hy; [destruct Hx|].
        inversion S as [|? ? S' F']; subst. destruct Hx as [->|Hx].
        - rewrite Forall_forall in F'. apply F'. apply in_or_app. right. exact Hy.
        - apply (IH b S' x y Hx Hy). }
      assert (Y := X (firstn buffer_size from) (skipn buffer_size from)
                     ltac:(rewrite firstn_skipn; exact Sf) _ _ L H). lia.
Qed.

Theorem remote_general :
  forall rounds sets k start,
    (forall j, ascending (sets j)) ->
    let '(out, cut) := notify_remote rounds sets k start in
    ascending out
    /\ (forall p, In p out -> (start <= p)%Z /\ exists j, k <= j /\ In p (sets j))
    /\ (cut = false -> forall p, (start <= p <= pid_max)%Z ->
          (forall j, k <= j -> In p (sets j)) -> In p out).
Proof.
  induction rounds as [|r IH]; intros sets k start A; cbn [notify_remote].
  - split; [constructor|]. split; [intros p []|discriminate].
  - generalize (copy_facts (sets k) start (A k)).
    destruct (copy_ids (sets k) start) as [ids further]. intros (S & I & NF & F).
    destruct further.
    + destruct (F eq_refl) as [NE F']. clear NF F.
      destruct (Z.ltb_spec (last ids 0%Z) pid_max) as [L|L].
      * generalize (IH sets (Datatypes.S k) (last ids 0 + 1)%Z A).
        destruct (notify_remote r sets (Datatypes.S k) (last ids 0 + 1)%Z) as [rest cut].
        intros (S2 & I2 & C2). split; [|split].
        { apply asc_app; [exact S|exact S2|]. intros x y Hx Hy.
          apply I2 in Hy. assert (x <= last ids 0)%Z by (apply asc_last_max; assumption). lia. }
        { intros p H. apply in_app_or in H. destruct H as [H|H].
          - apply I in H. split; [tauto|]. exists k. split; [lia|tauto].
          - apply I2 in H. destruct H as (H & j & J & K).
            assert (start <= last ids 0)%Z by (apply I, last_In, NE).
            split; [lia|]. exists j. split; [lia|exact K]. }
        { intros Cf p R M. apply in_or_app.
          destruct (Z.le_gt_cases p (last ids 0%Z)) as [Q|Q].
          - left. apply F'; [apply M; lia|lia|exact Q].
          - right. apply C2; [exact Cf|lia|]. intros j J. apply M. lia. }
      * split; [exact S|]. split.
        { intros p H. apply I in H. split; [tauto|]. exists k. split; [lia|tauto]. }
        { intros _ p R M. apply F'; [apply M; lia|lia|lia]. }
    + split; [exact S|]. split.
      { intros p H. apply I in H. split; [tauto|]. exists k. split; [lia|tauto]. }
      { intros _ p R M. apply (NF eq_refl); [apply M; lia|lia]. }
Qed.

(** C69: whatever registrations change while a notification is going on, no process is notified
    twice, every process notified was registered at some time during it, and every process that
    stays registered is notified - unless the limit of 255 copies was reached. *)
Theorem C69_remote_processes_partial :
  forall sets, (forall j, ascending (sets j)) ->
    let '(out, cut) := notify_event_remote sets in
    NoDup out
    /\ (forall p, In p out -> exists j, In p (sets j))
    /\ (cut = false -> forall p, (0 <= p <= 2147483647)%Z -> (forall j, In p (sets j)) -> In p out).
Proof.
  intros sets A. unfold notify_event_remote. change 2147483647%Z with pid_max.
  generalize (remote_general 255 sets 0 0%Z A).
  destruct (notify_remote 255 sets 0 0%Z) as [out cut]. intros (S & I & C).
  split; [|split].
  - clear -S. induction S as [|x l S IH F]; constructor; [|exact IH].
    intros H. rewrite Forall_forall in F. apply F in H. lia.
  - intros p H. apply I in H. destruct H as (_ & j & _ & J). exists j. exact J.
  - intros Cf p R M. apply C; [exact Cf|exact R|]. intros j _. apply M.
Qed.

(** The limit is not reached while at most 255 * 20 processes are registered at every time. *)
Lemma asc_length_bound (l : list Z) lo hi :
  ascending l -> (forall p, In p l -> (lo <= p <= hi)%Z) -> (Z.of_nat (length l) <= Z.max 0 (hi - lo + 1))%Z.
Proof.
  intros S. revert lo. induction S as [|x l S IH F]; intros lo B; [cbn; lia|].
  assert (B' : forall p, In p l -> (x + 1 <= p <= hi)%Z).
  { intros p H. rewrite Forall_forall in F. generalize (F p H) (B p (or_intror H)). lia. }
  specialize (IH _ B'). generalize (B x (or_introl eq_refl)). cbn [length]. lia.
Qed.

Lemma filter_all m l : (forall p, In p l -> (m <= p)%Z) -> filter (fun p => Z.leb m p) l = l.
Proof.
  induction l as [|x l IH]; intros B; [reflexivity|]. cbn.
  destruct (Z.leb_spec m x) as [W|W]; [|generalize (B x (or_introl eq_refl)); lia].
  f_equal. apply IH. intros p H. apply B. right. exact H.
Qed.

Lemma filter_none m l : (forall p, In p l -> (p < m)%Z) -> filter (fun p => Z.leb m p) l = [].
Proof.
  induction l as [|x l IH]; intros B; [reflexivity|]. cbn.
  destruct (Z.leb_spec m x) as [W|W]; [generalize (B x (or_introl eq_refl)); lia|].
  apply IH. intros p H. apply B. right. exact H.
Qed.

Lemma filter_above a m l : (a <= m)%Z ->
  filter (fun p => Z.leb m p) (filter (fun p => Z.leb a p) l) = filter (fun p => Z.leb m p) l.
Proof.
  intros H. induction l as [|w l IH]; [reflexivity|]. cbn [filter].
  destruct (Z.leb_spec a w) as [W|W]; cbn [filter].
  - destruct (Z.leb m w); [f_equal|]; exact IH.
  - destruct (Z.leb_spec m w); [lia|exact IH].
Qed.

Lemma fixed_set_rounds :
  forall rounds set k start,
    ascending set ->
    length (filter (fun p => Z.leb start p) set) <= rounds * buffer_size -> 0 < rounds ->
    notify_remote rounds (fun _ => set) k start = (filter (fun p => Z.leb start p) set, false)
    \/ exists p, In p set /\ (pid_max < p)%Z.
Proof.
  induction rounds as [|r IH]; intros set k start A L P; [lia|].
  cbn [notify_remote]. unfold copy_ids. set (from := filter (fun p => Z.leb start p) set) in *.
  destruct (Nat.ltb_spec buffer_size (length from)) as [G|G].
  2:{ left. rewrite firstn_all2 by exact G. reflexivity. }
  assert (Af : ascending from) by (apply asc_filter, A).
  assert (NE : firstn buffer_size from <> []) by (destruct from; [cbn in G; lia|discriminate]).
  set (ids := firstn buffer_size from) in *. set (rest := skipn buffer_size from).
  assert (E : from = ids ++ rest) by (symmetry; apply firstn_skipn).
  assert (Lx : (last ids 0%Z < match rest with [] => pid_max + 1 | y :: _ => y end)%Z \/ rest = []).
  { destruct rest as [|y rest'] eqn:Er; [right; reflexivity|left].
    assert (X : forall a b, ascending (a ++ b) -> forall x y, In x a -> In y b -> (x < y)%Z).
    { clear. induction a as [|z a IHa]; intros b S x y Hx Hy; [destruct Hx|].
      inversion S as [|? ? S' F']; subst. destruct Hx as [->|Hx].
      - rewrite Forall_forall in F'. apply F'. apply in_or_app. right. exact Hy.
      - apply (IHa b S' x y Hx Hy). }
    apply (X ids (y :: rest')); [rewrite <- E; exact Af|apply last_In, NE|left; reflexivity]. }
  assert (Rn : rest <> []).
  { intros R. rewrite R, app_nil_r in E. assert (length from <= buffer_size); [|lia].
    rewrite E. unfold ids. rewrite firstn_length. lia. }
  destruct Lx as [Lx|]; [|congruence].
  destruct (Z.ltb_spec (last ids 0%Z) pid_max) as [Q|Q].
  2:{ right. destruct rest as [|y rest'] eqn:Er; [congruence|]. exists y. split; [|lia].
      assert (In y from) by (rewrite E; apply in_or_app; right; left; reflexivity).
      apply filter_In in H. tauto. }
  assert (R' : filter (fun p => Z.leb (last ids 0 + 1)%Z p) set = rest).
  { rewrite <- (filter_above start _ set).
    2:{ assert (H : In (last ids 0%Z) from) by (rewrite E; apply in_or_app; left; apply last_In, NE).
        apply filter_In in H. destruct H as [_ H]. apply Z.leb_le in H. lia. }
    fold from. rewrite E at 1. rewrite filter_app, filter_none, filter_all; [reflexivity| |].
    - destruct rest as [|y rest'] eqn:Er; [intros p []|]. intros p [->|H]; [lia|].
      assert (Sr : ascending (y :: rest')).
      { rewrite E in Af. clear -Af. induction ids as [|z ids IHi]; [exact Af|].
        apply IHi. inversion Af; assumption. }
      inversion Sr as [|? ? _ Fr]; subst. rewrite Forall_forall in Fr. apply Fr in H. lia.
    - intros p Hp. assert (p <= last ids 0)%Z by (apply asc_last_max; [apply asc_firstn, Af|exact Hp]). lia. }
  assert (Lr : length rest <= r * buffer_size).
  { assert (length from = length ids + length rest) by (rewrite E at 1; apply app_length).
    assert (length ids = buffer_size) by (unfold ids; rewrite firstn_length; lia). lia. }
  assert (P' : 0 < r).
  { destruct r; [|lia]. cbn in Lr. destruct rest; [congruence|cbn in Lr; lia]. }
  destruct (IH set (S k) (last ids 0 + 1)%Z A) as [X|X]; [rewrite R'; exact Lr|exact P'| |right; exact X].
  left. rewrite X, R', <- E. reflexivity.
Qed.

(** With at most 5100 registered processes and no change meanwhile, exactly the registered
    processes are notified, each once. *)
Theorem C69_remote_exact :
  forall set, ascending set -> (forall p, In p set -> (0 <= p <= 2147483647)%Z) ->
    (N.of_nat (length set) <= 5100)%N ->
    notify_event_remote (fun _ => set) = (set, false).
Proof.
  change 2147483647%Z with pid_max. intros set A B L. unfold notify_event_remote.
  assert (F : filter (fun p => Z.leb 0 p) set = set).
  { clear -B. induction set as [|x l IH]; [reflexivity|]. cbn.
    generalize (B x (or_introl eq_refl)). intros H. replace (0 <=? x)%Z with true by lia.
    f_equal. apply IH. intros p Hp. apply B. right. exact Hp. }
  destruct (fixed_set_rounds 255 set 0 0%Z A) as [X|(p & P & Q)].
  - rewrite F. unfold buffer_size. lia.
  - lia.
  - rewrite X, F. reflexivity.
  - apply B in P. lia.
Qed.

Lemma remote_length : forall rounds sets k start,
  length (fst (notify_remote rounds sets k start)) <= rounds * buffer_size.
Proof.
  induction rounds as [|r IH]; intros sets k start; cbn [notify_remote]; [cbn; lia|].
  assert (B : length (fst (copy_ids (sets k) start)) <= buffer_size) by (cbn [copy_ids fst]; rewrite firstn_length; lia).
  destruct (copy_ids (sets k) start) as [ids further]. cbn [fst] in B. destruct further; [|cbn [fst]; lia].
  destruct (Z.ltb _ _); [|cbn [fst]; lia].
  generalize (IH sets (S k) (last ids 0 + 1)%Z). destruct (notify_remote r sets (S k) (last ids 0 + 1)%Z) as [o c].
  cbn [fst]. rewrite app_length. lia.
Qed.

Lemma asc_NoDup l : ascending l -> NoDup l.
Proof.
  induction 1 as [|x l S IH F]; constructor; [|exact IH]. intros H. rewrite Forall_forall in F. apply F in H. lia.
Qed.

(** The limit is real: with more than 5100 registered processes, and no change meanwhile, some registered process is not
    notified. *)
Theorem C69_beyond_the_limit : forall set, ascending set -> (5100 < N.of_nat (length set))%N ->
  exists p, In p set /\ ~ In p (fst (notify_event_remote (fun _ => set))).
Proof.
  intros set A L. set (out := fst (notify_event_remote (fun _ => set))).
  assert (B : (N.of_nat (length out) <= 5100)%N).
  { generalize (remote_length 255 (fun _ => set) 0 0%Z). fold (notify_event_remote (fun _ => set)). fold out.
    unfold buffer_size. lia. }
  destruct (forallb (fun p => existsb (Z.eqb p) out) set) eqn:E.
  - exfalso. rewrite forallb_forall in E. assert (I : incl set out).
    { intros p P. apply E in P. apply existsb_exists in P. destruct P as [q [Q P]]. apply Z.eqb_eq in P. subst. exact Q. }
    apply (NoDup_incl_length (asc_NoDup _ A)) in I. lia.
  - assert (X : exists p, In p set /\ existsb (Z.eqb p) out = false).
    { clear - E. clearbody out. induction set as [|x l IH]; cbn in E; [discriminate|]. apply andb_false_iff in E. destruct E as [E|E].
      - exists x. split; [left; reflexivity|exact E].
      - destruct (IH E) as [p [P Q]]. exists p. split; [right; exact P|exact Q]. }
    destruct X as [p [P Q]]. exists p. split; [exact P|]. intros H.
    assert (existsb (Z.eqb p) out = true) by (apply existsb_exists; exists p; split; [exact H|apply Z.eqb_refl]). congruence.
Qed.

(** Hence "every registered process is notified" fails. *)
Theorem C69_many_processes_refuted : exists set, ascending set /\ (forall p, In p set -> (0 <= p <= 2147483647)%Z) /\
  exists p, In p set /\ ~ In p (fst (notify_event_remote (fun _ => set))).
Proof.
  assert (Q : forall n a, ascending (map Z.of_nat (seq a n))).
  { induction n as [|n IH]; intros a; cbn; constructor; [apply IH|]. rewrite Forall_forall. intros x X.
    apply in_map_iff in X. destruct X as [y [<- Y]]. apply in_seq in Y. lia. }
  exists (map Z.of_nat (seq 0 (N.to_nat 5101))). split; [apply Q|]. split.
  - intros p P. apply in_map_iff in P. destruct P as [y [<- Y]]. apply in_seq in Y. lia.
  - apply C69_beyond_the_limit; [apply Q|]. rewrite map_length, seq_length, N2Nat.id. reflexivity.
Qed.

Example C69_example :
  notify_event_remote (fun _ => [3; 17; 40]%Z) = ([3; 17; 40]%Z, false)
  /\ ascending [3; 17; 40]%Z /\ notify_locally [(1, true); (2, false); (3, true)] = [1; 3].
Proof. split; [reflexivity|]. split; [repeat constructor|reflexivity]. Qed.

(** 25 processes need two copies. *)
Example C69_two_copies :
  fst (notify_event_remote (fun _ => map Z.of_nat (seq 1 25))) = map Z.of_nat (seq 1 25).
Proof. reflexivity. Qed.

Print Assumptions C68_send_notifies_partial.
Print Assumptions C69_remote_exact.
Print Assumptions C69_many_processes_refuted.
