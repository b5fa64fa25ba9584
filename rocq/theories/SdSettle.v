(** Proofs about service discovery: left alone, the client comes to rest. *)
From Verif Require Import Base SdModel SdProofs SdInv SdInv1 SdInv2 SdLog.

Local Arguments handles : simpl never.
Local Arguments merge : simpl never.
Local Arguments transfer_all : simpl never.
Local Arguments transfer_new : simpl never.
Local Arguments mkdir : simpl never.

(** Steps of the client's own threads: nobody changes the file system or starts or stops a search. *)
Definition own (l : label) : Prop :=
  match l with CrawlStep | Read _ | WStep | WHandle _ => True | _ => False end.

Inductive go : st -> st -> Prop :=
| go_refl s : go s s
| go_step s l s1 s2 : own l -> calm s l -> step s l = Some s1 -> go s1 s2 -> go s s2.

Lemma go_trans a b c : go a b -> go b c -> go a c.
Proof. induction 1 as [|s l s1 s2 O C S G IH]; intros H; [exact H|]. apply (go_step s l s1 c O C S). auto. Qed.

Lemma go_one s l s' : own l -> calm s l -> step s l = Some s' -> go s s'.
Proof. intros O C S. apply (go_step s l s' s' O C S). apply go_refl. Qed.

Lemma own_lucky l : own l -> lucky l.
Proof. destruct l; cbn; try tauto; unfold lucky; discriminate. Qed.

Lemma go_inv s s' : go s s' -> Inv s -> Inv s'.
Proof. induction 1 as [|s l s1 s2 O C S G IH]; intros I; [exact I|]. apply IH. apply (inv_step s l s1 I (own_lucky _ O) S). Qed.

Definition rested (s s' : st) : Prop := wrk s' = wrk s /\ crw s' = None /\ (obsolete (cl s) = [] -> obsolete (cl s') = []).

Lemma obs_nil (a b : list handle) : (forall h, In h b -> In h a) -> a = [] -> b = [].
Proof. intros H ->. destruct b as [|x r]; [reflexivity|]. exfalso. apply (H x). left. reflexivity. Qed.

(** A crawl ends. *)
Definition ends (s : st) (x : crawl) : Prop :=
  exists s', go s s' /\ rested s s' /\ (forall w i, c_who x = Found w i -> queue (ker s') = queue (ker s)).

Lemma ends_next s s1 x x1 : Inv s -> crw s = Some x -> step s CrawlStep = Some s1 -> wrk s1 = wrk s -> cl s1 = cl s ->
  c_who x1 = c_who x -> (forall w i, c_who x = Found w i -> queue (ker s1) = queue (ker s)) -> ends s1 x1 -> ends s x.
Proof.
  intros I X S W C H Q (s2 & G & (R1 & R2 & R3) & R4). exists s2. split; [|split].
  - apply (go_step s CrawlStep s1 s2 Logic.I Logic.I S G).
  - split; [congruence|]. split; [exact R2|]. rewrite C in R3. exact R3.
  - intros w i F. rewrite <- (Q w i F). apply (R4 w i). congruence.
Qed.

Lemma ends_check t : forall s x, Inv s -> crw s = Some x -> c_phase x = PCheck t -> ends s x.
Proof.
  induction t as [|p r IH]; intros s x I X P.
  - assert (S : step s CrawlStep = Some (crawl_step s x)) by (unfold step; rewrite (i_dead _ I), X; reflexivity).
    pose proof (inv_crawl _ _ I S) as I'. pose proof (i_dead _ I') as D. pose proof (step_effect _ _ _ I S) as E.
    assert (F : crawl_step s x = finish_crawl s x) by (unfold crawl_step; rewrite P; reflexivity).
    exists (crawl_step s x). split; [apply (go_one s CrawlStep); [exact Logic.I|exact Logic.I|exact S]|].
    assert (SH : wrk (crawl_step s x) = wrk s /\ crw (crawl_step s x) = None /\ ker (crawl_step s x) = ker s).
    { rewrite F in *. unfold finish_crawl in *. destruct (c_who x).
      - destruct (transfer_new _ _ _ _ _ _ _); [auto|discriminate].
      - destruct (c_wds x) as [|[w d] [|]]; try discriminate. destruct (watches (cl s) w0); [|discriminate]. destruct (link_all _ _ _); [auto|discriminate]. }
    destruct SH as (A & B & C). split; [|intros; rewrite C; reflexivity]. split; [exact A|]. split; [exact B|].
    destruct E as [EL EK EO EO'|EL EG EK EO EC|h0 x0 y X0 O D0 P0 Y DY QY EL EK EO|h0 d0 q0 y kn X0 Y DY QY P0 EL EK EO EC W].
    + apply obs_nil. intros h Z. destruct (EO h Z) as [Q|Q]; [exact Q|discriminate].
    + intros _. exact EO.
    + rewrite EO. auto.
    + rewrite EO. auto.
  - eassert (S : step s CrawlStep = Some _) by (unfold step; rewrite (i_dead _ I), X; unfold crawl_step; rewrite P; reflexivity).
    pose proof (inv_crawl _ _ I S) as I'. eapply (ends_next s _ x _ I X S); [reflexivity|reflexivity| |reflexivity|].
    2:{ apply IH; [exact I'|reflexivity|reflexivity]. }
    reflexivity.
Qed.

Lemma no_watch_found s x w0 i0 : Inv s -> crw s = Some x -> c_who x = Found w0 i0 -> c_phase x = PMain \/ exists t, c_phase x = PCheck t.
Proof.
  intros I X F. destruct (c_phase x) as [| | |t] eqn:P; auto; right.
  - destruct (x_one _ _ _ _ _ _ (i_crw _ I x X) i0) as (_ & _ & t & T); [congruence|rewrite F; reflexivity|congruence].
  - destruct (x_one _ _ _ _ _ _ (i_crw _ I x X) i0) as (_ & _ & t & T); [congruence|rewrite F; reflexivity|congruence].
  - exists t. reflexivity.
Qed.

Lemma ends_add r : forall s x, Inv s -> crw s = Some x -> c_phase x = PAdd r -> ends s x.
Proof.
  induction r as [|i r IH]; intros s x I X P.
  - eassert (S : step s CrawlStep = Some _) by (unfold step; rewrite (i_dead _ I), X; unfold crawl_step; rewrite P; reflexivity).
    pose proof (inv_crawl _ _ I S) as I'. eapply (ends_next s _ x _ I X S); [reflexivity|reflexivity| |reflexivity|].
    2:{ eapply ends_check; [exact I'|reflexivity|reflexivity]. }
    reflexivity.
  - destruct (add_watch (ker s) (Some i)) as [k w] eqn:A.
    eassert (S : step s CrawlStep = Some _) by (unfold step; rewrite (i_dead _ I), X; unfold crawl_step; rewrite P, A; reflexivity).
    pose proof (inv_crawl _ _ I S) as I'. eapply (ends_next s _ x _ I X S); [reflexivity|reflexivity| | |].
    3:{ apply IH; [exact I'|reflexivity|reflexivity]. }
    + reflexivity.
    + intros w0 i0 F. destruct (no_watch_found s x w0 i0 I X F) as [Z|(t & Z)]; congruence.
Qed.

Lemma crawl_ends s x : Inv s -> crw s = Some x -> ends s x.
Proof.
  intros I X. destruct (c_phase x) as [| |r|t] eqn:P; [| |apply (ends_add r s x I X P)|apply (ends_check t s x I X P)].
  - destruct (add_watch (ker s) (crawl_dir (c_who x))) as [k w] eqn:A.
    destruct (crawl_dir (c_who x)) as [i|] eqn:D.
    + eassert (S : step s CrawlStep = Some _) by (unfold step; rewrite (i_dead _ I), X; unfold crawl_step; rewrite P, D, A; reflexivity).
      pose proof (inv_crawl _ _ I S) as I'. eapply (ends_next s _ x _ I X S); [reflexivity|reflexivity| | |].
      3:{ eapply ends_check; [exact I'|reflexivity|reflexivity]. }
      * reflexivity.
      * intros w0 i0 F. cbn [ker set_crw set_ker]. rewrite F in D. cbn in D. injection D as ->.
        pose proof (x_who _ _ _ _ _ _ (i_crw _ I x X)) as XW. rewrite F in XW. destruct XW as [DI _].
        unfold add_watch, mkdir in A. rewrite (proj2 (mem_In _ _) DI) in A. destruct (kwd (ker s) (Some i)); injection A as <- _; reflexivity.
    + eassert (S : step s CrawlStep = Some _) by (unfold step; rewrite (i_dead _ I), X; unfold crawl_step; rewrite P, D, A; reflexivity).
      pose proof (inv_crawl _ _ I S) as I'. eapply (ends_next s _ x _ I X S); [reflexivity|reflexivity| | |].
      3:{ (* the listing *)
        match type of I' with Inv ?S1 => set (s1 := S1) in * end.
        eassert (S2 : step s1 CrawlStep = Some _) by (unfold step; rewrite (i_dead _ I'); reflexivity).
        pose proof (inv_crawl _ _ I' S2) as I2.
        eapply (ends_next s1 _ _ _ I' eq_refl S2); [reflexivity|reflexivity| | |].
        3:{ eapply ends_add; [exact I2|reflexivity|reflexivity]. }
        - reflexivity.
        - reflexivity. }
      * reflexivity.
      * intros w0 i0 F. rewrite F in D. discriminate.
  - eassert (S : step s CrawlStep = Some _) by (unfold step; rewrite (i_dead _ I), X; unfold crawl_step; rewrite P; reflexivity).
    pose proof (inv_crawl _ _ I S) as I'. eapply (ends_next s _ x _ I X S); [reflexivity|reflexivity| | |].
    3:{ eapply ends_add; [exact I'|reflexivity|reflexivity]. }
    + reflexivity.
    + reflexivity.
Qed.

(** The worker comes back to its wait. *)
Definition back (s : st) : Prop :=
  exists s', go s s' /\ wrk s' = WIdle /\ crw s' = None /\ (obsolete (cl s) = [] -> obsolete (cl s') = [] /\ queue (ker s') = queue (ker s)).

Lemma back_next s l s1 : own l -> calm s l -> step s l = Some s1 ->
  (obsolete (cl s) = [] -> obsolete (cl s1) = [] /\ queue (ker s1) = queue (ker s)) -> back s1 -> back s.
Proof.
  intros O C S H (s2 & G & A & B & D). exists s2. split; [apply (go_step s l s1 s2 O C S G)|]. split; [exact A|]. split; [exact B|].
  intros Z. destruct (H Z) as [Z1 Z2]. destruct (D Z1) as [Z3 Z4]. split; [exact Z3|congruence].
Qed.

Lemma del_le n l : length (del n l) <= length l.
Proof. unfold del. induction l as [|x r IH]; cbn; [lia|]. destruct (negb (n =? x)); cbn; lia. Qed.

Lemma del_less n l : In n l -> length (del n l) < length l.
Proof.
  induction l as [|x r IH]; [intros []|]. intros H. unfold del. cbn [filter]. destruct (n =? x) eqn:E; cbn [negb length].
  - pose proof (del_le n r) as Z. unfold del in Z. lia.
  - apply Nat.eqb_neq in E. destruct H as [->|H]; [congruence|]. specialize (IH H). unfold del in IH. lia.
Qed.

Lemma call_obsolete c h : obsolete (call_handler c h) = obsolete c.
Proof. destruct (call_handler_same c h) as (_ & _ & _ & Z & _). exact Z. Qed.

Lemma back_callc n : forall s keys, length keys <= n -> Inv s -> crw s = None -> wrk s = WCallC keys -> back s.
Proof.
  induction n as [|n IH]; intros s keys L I C W.
  - destruct keys as [|h r]; [|cbn in L; lia].
    eassert (S : step s WStep = Some _) by (unfold step; rewrite (i_dead _ I), C; unfold worker_step; rewrite W; reflexivity).
    eapply (back_next s WStep _ Logic.I Logic.I S); [auto|]. eexists. split; [apply go_refl|]. split; [reflexivity|]. split; [exact C|]. auto.
  - destruct keys as [|h r]; [apply (IH s []); auto; cbn; lia|].
    eassert (S : step s (WHandle h) = Some _).
    { unfold step. rewrite (i_dead _ I), C, W. cbn [mem existsb]. rewrite Nat.eqb_refl. cbn [orb]. reflexivity. }
    pose proof (inv_handle _ _ _ I S) as I'.
    eapply (back_next s (WHandle h) _ Logic.I Logic.I S); [cbn; rewrite call_obsolete; auto|].
    eapply IH; [|exact I'|exact C|reflexivity].
    exact (proj1 (Nat.lt_succ_r _ _) (Nat.lt_le_trans _ _ _ (del_less h (h :: r) (or_introl eq_refl)) L)).
Qed.

Lemma back_cre r : forall s im, Inv s -> crw s = None -> wrk s = WCre r im -> back s.
Proof.
  induction r as [|[w e] r IH]; intros s im I C W.
  - eassert (S : step s WStep = Some _) by (unfold step; rewrite (i_dead _ I), C; unfold worker_step; rewrite W; reflexivity).
    pose proof (inv_worker _ _ I S) as I'.
    eapply (back_next s WStep _ Logic.I Logic.I S); [auto|]. eapply back_callc; [|exact I'|exact C|reflexivity]. apply le_n.
  - destruct (worker_step s) as [s1|] eqn:WS.
    2:{ exfalso. unfold worker_step in WS. rewrite W in WS. destruct (watches (cl s) w) as [x|]; [destruct e, (w_dir x); discriminate|discriminate]. }
    assert (S : step s WStep = Some s1) by (unfold step; rewrite (i_dead _ I), C; exact WS).
    pose proof (inv_worker _ _ I S) as I'. pose proof (i_dead _ I') as D.
    assert (SH : exists im', wrk s1 = WCre r im' /\ obsolete (cl s1) = obsolete (cl s) /\ ker s1 = ker s /\
                  (crw s1 = None \/ exists i, crw s1 = Some (mkCr (Found w i) PMain [] [] []))).
    { unfold worker_step in WS. rewrite W in WS. destruct (watches (cl s) w) as [x|]; [|injection WS as <-; exists im; auto].
      exists (w_hs x ++ im). destruct e as [i|q|q|], (w_dir x) as [j|]; injection WS as <-; cbn; try (split; [reflexivity|]; split; [reflexivity|]; split; [reflexivity|]; left; exact C).
      split; [reflexivity|]. split; [reflexivity|]. split; [reflexivity|]. right. exists i. reflexivity. }
    destruct SH as (im' & W1 & O1 & K1 & [C1|(i & C1)]).
    + eapply (back_next s WStep s1 Logic.I Logic.I S); [rewrite O1, K1; auto|]. apply (IH s1 im' I' C1 W1).
    + eapply (back_next s WStep s1 Logic.I Logic.I S); [rewrite O1, K1; auto|].
      destruct (crawl_ends s1 _ I' C1) as (s2 & G & (R1 & R2 & R3) & R4). pose proof (go_inv _ _ G I') as I2.
      destruct (IH s2 im' I2 R2) as (s3 & G3 & A & B & D3); [congruence|].
      exists s3. split; [apply (go_trans _ _ _ G G3)|]. split; [exact A|]. split; [exact B|].
      intros Z. destruct (D3 (R3 Z)) as [Z1 Z2]. split; [exact Z1|]. rewrite Z2. apply (R4 w i). reflexivity.
Qed.

Lemma back_calld n : forall s keys cre, length keys <= n -> Inv s -> crw s = None -> wrk s = WCallD keys cre -> back s.
Proof.
  induction n as [|n IH]; intros s keys cre L I C W.
  - destruct keys as [|h r]; [|cbn in L; lia].
    eassert (S : step s WStep = Some _) by (unfold step; rewrite (i_dead _ I), C; unfold worker_step; rewrite W; reflexivity).
    pose proof (inv_worker _ _ I S) as I'.
    eapply (back_next s WStep _ Logic.I Logic.I S); [auto|]. eapply back_cre; [exact I'|exact C|reflexivity].
  - destruct keys as [|h r]; [apply (IH s [] cre); auto; cbn; lia|].
    eassert (S : step s (WHandle h) = Some _).
    { unfold step. rewrite (i_dead _ I), C, W. cbn [mem existsb]. rewrite Nat.eqb_refl. cbn [orb]. reflexivity. }
    pose proof (inv_handle _ _ _ I S) as I'.
    eapply (back_next s (WHandle h) _ Logic.I Logic.I S); [cbn; rewrite call_obsolete; auto|].
    eapply IH; [|exact I'|exact C|reflexivity].
    exact (proj1 (Nat.lt_succ_r _ _) (Nat.lt_le_trans _ _ _ (del_less h (h :: r) (or_introl eq_refl)) L)).
Qed.

Lemma back_del r : forall s im cre, Inv s -> crw s = None -> wrk s = WDel r im cre -> back s.
Proof.
  induction r as [|[w e] r IH]; intros s im cre I C W.
  - eassert (S : step s WStep = Some _) by (unfold step; rewrite (i_dead _ I), C; unfold worker_step; rewrite W; reflexivity).
    pose proof (inv_worker _ _ I S) as I'.
    eapply (back_next s WStep _ Logic.I Logic.I S); [auto|]. eapply back_calld; [|exact I'|exact C|reflexivity]. apply le_n.
  - destruct (worker_step s) as [s1|] eqn:WS.
    2:{ exfalso. unfold worker_step in WS. rewrite W in WS. destruct (watches (cl s) w) as [x|]; [destruct e, (w_dir x); discriminate|discriminate]. }
    assert (S : step s WStep = Some s1) by (unfold step; rewrite (i_dead _ I), C; exact WS).
    pose proof (inv_worker _ _ I S) as I'. pose proof (i_dead _ I') as D.
    assert (SH : exists im', wrk s1 = WDel r im' cre /\ obsolete (cl s1) = obsolete (cl s) /\ ker s1 = ker s /\ crw s1 = None).
    { unfold worker_step in WS. rewrite W in WS. destruct (watches (cl s) w) as [x|]; [|injection WS as <-; exists im; auto].
      destruct e as [i|q|q|], (w_dir x) as [j|]; injection WS as <-; cbn in *; try discriminate;
        (eexists; split; [reflexivity|]; split; [reflexivity|]; split; [reflexivity|]; exact C). }
    destruct SH as (im' & W1 & O1 & K1 & C1).
    eapply (back_next s WStep s1 Logic.I Logic.I S); [rewrite O1, K1; auto|]. apply (IH s1 im' cre I' C1 W1).
Qed.

Lemma back_got s b : Inv s -> crw s = None -> wrk s = WGot b ->
  back s /\ exists s', go s s' /\ wrk s' = WIdle /\ crw s' = None /\ obsolete (cl s') = [].
Proof.
  intros I C W. pose proof (i_wf _ I) as WF. rewrite C in WF.
  destruct (transfer_all_spec (obsolete (cl s)) _ _ _ WF) as (k & c & ign & T & _).
  eassert (S : step s WStep = Some _) by (unfold step; rewrite (i_dead _ I), C; unfold worker_step; rewrite W, T; reflexivity).
  pose proof (inv_worker _ _ I S) as I'.
  assert (B : back (mkSt k (set_obsolete c []) (WDel (filter is_del b) [] (filter is_cre b)) (crw s) (used s) (dead s))).
  { eapply back_del; [exact I'|exact C|reflexivity]. }
  split.
  - apply (back_next s WStep _ Logic.I Logic.I S); [|exact B]. intros Z. split; [reflexivity|]. rewrite Z in T. unfold transfer_all in T. injection T as <- _. reflexivity.
  - destruct B as (s2 & G & A1 & A2 & A3). exists s2. split; [apply (go_step s WStep _ s2 Logic.I Logic.I S G)|]. split; [exact A1|]. split; [exact A2|]. apply A3. reflexivity.
Qed.

Lemma worker_back s : Inv s -> crw s = None -> back s.
Proof.
  intros I C. destruct (wrk s) as [|b|r im cre|keys cre|r im|keys] eqn:W.
  - exists s. split; [apply go_refl|]. auto.
  - apply (back_got s b I C W).
  - apply (back_del r s im cre I C W).
  - apply (back_calld (length keys) s keys cre (le_n _) I C W).
  - apply (back_cre r s im I C W).
  - apply (back_callc (length keys) s keys (le_n _) I C W).
Qed.

Lemma short_calm (l : list (wd * ev)) : no_flip (firstn 1 l) = true.
Proof. destruct l as [|[w e] r]; [reflexivity|]. cbn. destruct e; reflexivity. Qed.

(** At rest: nothing to read, nothing being done. *)
Definition quiet (s : st) : Prop := queue (ker s) = [] /\ wrk s = WIdle /\ crw s = None.

Lemma settle_queue n : forall s, length (queue (ker s)) <= n -> Inv s -> wrk s = WIdle -> crw s = None -> obsolete (cl s) = [] ->
  exists s', go s s' /\ quiet s' /\ obsolete (cl s') = [].
Proof.
  induction n as [|n IH]; intros s L I W C O; destruct (queue (ker s)) as [|e r] eqn:Q; try (cbn in L; lia);
    try solve [exists s; split; [apply go_refl|]; split; [split; [exact Q|]; split; [exact W|exact C]|exact O]].
  eassert (S : step s (Read 1) = Some _) by (unfold step; rewrite (i_dead _ I), W; reflexivity).
  pose proof (inv_read _ _ _ I S) as I'. match type of I' with Inv ?S1 => set (s1 := S1) in * end.
  destruct (worker_back s1 I' C) as (s2 & G & A & B & D). destruct (D O) as [O2 Q2].
  assert (L2 : length (queue (ker s2)) <= n) by (rewrite Q2; unfold s1; cbn [ker queue]; rewrite Q; cbn in *; lia).
  destruct (IH s2 L2 (go_inv _ _ G I') A B O2) as (s3 & G3 & Z).
  exists s3. split; [|exact Z]. apply (go_step s (Read 1) s1 s3 Logic.I); [apply short_calm|exact S|]. apply (go_trans _ _ _ G G3).
Qed.

Theorem settles s : Inv s -> exists s', go s s' /\ quiet s' /\ obsolete (cl s') = [].
Proof.
  intros I. assert (E1 : exists s1, go s s1 /\ crw s1 = None).
  { destruct (crw s) as [x|] eqn:C; [|exists s; split; [apply go_refl|exact C]].
    destruct (crawl_ends s x I C) as (s1 & G & (_ & R & _) & _). exists s1. auto. }
  destruct E1 as (s1 & G1 & C1). pose proof (go_inv _ _ G1 I) as I1.
  destruct (worker_back s1 I1 C1) as (s2 & G2 & W2 & C2 & _). pose proof (go_inv _ _ G2 I1) as I2.
  eassert (S : step s2 (Read 1) = Some _) by (unfold step; rewrite (i_dead _ I2), W2; reflexivity).
  pose proof (inv_read _ _ _ I2 S) as I3. match type of I3 with Inv ?S1 => set (s3 := S1) in * end.
  destruct (back_got s3 _ I3 C2 eq_refl) as (_ & s4 & G4 & W4 & C4 & O4). pose proof (go_inv _ _ G4 I3) as I4.
  destruct (settle_queue _ s4 (le_n _) I4 W4 C4 O4) as (s5 & G5 & Z). exists s5. split; [|exact Z].
  apply (go_trans _ _ _ G1). apply (go_trans _ _ _ G2). apply (go_step s2 (Read 1) s3 s5 Logic.I); [apply short_calm|exact S|].
  apply (go_trans _ _ _ G4 G5).
Qed.
