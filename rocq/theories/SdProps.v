(** Properties of service discovery (C75 to C80). *)
From Verif Require Import Base SdModel SdProofs SdInv SdInv1 SdInv2 SdLog SdSettle.

(** * Vocabulary *)

(** Runs: the steps taken so far, newest first, each allowed by [ok]. *)
Inductive reach (ok : st -> label -> Prop) : list label -> st -> Prop :=
| r_init : reach ok [] init
| r_step tr s l s' : reach ok tr s -> ok s l -> step s l = Some s' -> reach ok (l :: tr) s'.

Definition any (_ : st) (_ : label) : Prop := True.

(** An instance is offered at a quality level while its flag file is there. *)
Definition offered (s : st) (i : inst) (q : bool) : Prop := In (i, q) (files (ker s)).

(** A search for one instance, or for any instance of the service. *)
Definition wanted (d : dir) (i : inst) : Prop := d = None \/ d = Some i.

(** The search was started, its start has not failed, and it was not stopped. *)
Definition running (tr : list label) (h : handle) (d : dir) (q : bool) : Prop :=
  In (StartFind h d q) tr /\ ~ In (CrawlFail h) tr /\ ~ In (StopFind h) tr.

(** What the handler of the search was called with last, nothing if it was not called. *)
Definition last_told (s : st) (h : handle) : list inst := hd [] (calls h (log (cl s))).

(** The queue of the kernel is empty and no thread of the client is at work. *)
Definition at_rest (s : st) : Prop := queue (ker s) = [] /\ wrk s = WIdle /\ crw s = None.

(** No crawl of a directory just created fails over and over (it ends in an assertion). *)
Definition no_failure (_ : st) (l : label) : Prop := l <> FoundFail.

(** Besides, no batch read from the kernel holds the creation of a flag file followed by its removal. *)
Fixpoint flips (b : list (wd * ev)) : Prop :=
  match b with
  | [] => False
  | (w, ECreate q) :: r => In (w, EDelete q) r \/ flips r
  | _ :: r => flips r
  end.

Definition slow_providers (s : st) (l : label) : Prop :=
  match l with
  | Read n => ~ flips (firstn n (queue (ker s)))
  | FoundFail => False
  | _ => True
  end.

(** * The invariants hold *)

Lemma flips_spec b : ~ flips b -> no_flip b = true.
Proof.
  induction b as [|[w e] r IH]; intros N; [reflexivity|]. destruct e as [i|q|q|]; cbn in *; try (apply IH; exact N).
  apply andb_true_intro. split; [|apply IH; tauto].
  apply negb_true_iff. apply not_true_is_false. intros Z. apply existsb_exists in Z. destruct Z as ((w' & e') & A & B).
  apply N. left. unfold says in B. cbn [fst snd] in B. destruct (w' =? w) eqn:B1; [|discriminate]. apply Nat.eqb_eq in B1. subst w'.
  destruct e' as [i|q'|q'|]; try discriminate; destruct (Bool.eqb q q') eqn:B2; try discriminate.
  apply Bool.eqb_prop in B2. subst q'. exact A.
Qed.

Lemma reach_inv (ok : st -> label -> Prop) tr s : (forall s l, ok s l -> l <> FoundFail) -> reach ok tr s -> Inv s.
Proof.
  intros K. induction 1 as [|tr s l s' R IH O S]; [apply inv_init|]. apply (inv_step s l s' IH); [apply (K s l O)|exact S].
Qed.

Lemma reach_calm tr s : reach slow_providers tr s -> Inv s /\ Inv2 s.
Proof.
  induction 1 as [|tr s l s' R [I J] O S]; [split; [apply inv_init|apply inv2_init]|].
  assert (C : calm s l) by (destruct l; cbn in *; auto; apply flips_spec; exact O).
  split; [|apply (inv2_step s l s' I J C S)]. apply (inv_step s l s' I); [|exact S]. intros ->. exact O.
Qed.

Lemma dead_stays s l : dead s = true -> step s l = None.
Proof. intros D. unfold step. rewrite D. reflexivity. Qed.

Lemma reach_any ok tr s : reach ok tr s -> Tr tr s /\ (Inv s \/ dead s = true).
Proof.
  induction 1 as [|tr s l s' R [T [I|D]] O S]; [split; [apply tr_init|left; apply inv_init]| |rewrite (dead_stays s l D) in S; discriminate].
  split; [apply (tr_step tr s l s' I T S)|].
  destruct (dead s') eqn:DS; [right; reflexivity|left].
  destruct l; try (refine (inv_step s _ s' I _ S); unfold lucky; discriminate).
  exfalso. unfold step in S. rewrite (i_dead _ I) in S. destruct (crw s) as [[[h0 d q|w i0] ph ws is fo]|]; try discriminate.
  injection S as <-. cbn in DS. discriminate DS.
Qed.

(** * C75: what is told is what is offered *)

Theorem C75_accurate_partial tr s h d q i :
  reach slow_providers tr s -> at_rest s -> running tr h d q ->
  (In i (last_told s h) <-> offered s i q /\ wanted d i).
Proof.
  intros R (Q & W & C) (A & NC & NS). destruct (reach_calm _ _ R) as [I J]. destruct (reach_any _ _ _ R) as [T _].
  assert (NO : ~ In h (obsolete (cl s))) by (intros Z; apply NS; apply (t_obs _ _ T h Z)).
  destruct (t_act _ _ T h d q A NS NC) as [(x & X & D & E)|(x & X & _)]; [|congruence].
  pose proof (j_con _ J) as K. pose proof (i_wf _ I) as F.
  assert (P : pend s = []) by (unfold pend; rewrite W, Q; reflexivity).
  assert (M : imp s = []) by (unfold imp; rewrite W; reflexivity). rewrite P, M in K. rewrite P, C in F.
  change (last_told s h) with (told h (log (cl s))). rewrite (t_told _ _ T h x X i).
  assert (ND : ~ due [] (cl s) [] h x i).
  { intros [w y Y1 Y2 Y3 Y4|Y|w y Y1 Y2 Y3 Y4 Y5]; [apply Y4; reflexivity|destruct Y|destruct Y5]. }
  assert (G : wanted d i -> In i (dirs (ker s)) -> (In i (s_prev x) <-> offered s i q)).
  { intros WA DI. rewrite <- D in WA.
    destruct (r_told _ _ _ _ K h x i X NO WA) as [Z|Z]; [|contradiction]. rewrite Z, E.
    destruct (linked _ _ _ _ h x i F X WA DI) as [(w & y & Y1 & Y2 & Y3)|(_ & w & y & _ & _ & _ & [Z1|Z1])]; [|destruct Z1|exfalso; apply (no_fnd_none _ _ Z1)].
    apply (c_same _ _ _ _ K i w y q Y1 Y2). reflexivity. }
  split.
  - intros Z. assert (WA : wanted d i) by (rewrite <- D; apply (r_match _ _ _ _ K h x i X Z)).
    split; [|exact WA]. rewrite <- D in WA. destruct (r_told _ _ _ _ K h x i X NO WA) as [B|B]; [|contradiction].
    apply B in Z. destruct (wf_known _ _ _ _ F _ _ Z) as (w & y & Y1 & Y2). apply (c_same _ _ _ _ K i w y q Y1 Y2); [reflexivity|congruence].
  - intros [O WA]. apply G; [exact WA|apply (wf_files _ _ _ _ F _ _ O)|exact O].
Qed.

(** Left alone the client comes to rest, from every state, and then everything told is right. *)
Theorem C75_settles_partial tr s :
  reach slow_providers tr s ->
  exists tr' s', reach slow_providers (tr' ++ tr) s' /\ at_rest s' /\
    (forall l, In l tr' -> match l with CrawlStep | Read _ | WStep | WHandle _ => True | _ => False end) /\
    (forall i q, offered s' i q <-> offered s i q).
Proof.
  intros R. destruct (reach_calm _ _ R) as [I _]. destruct (settles s I) as (s' & G & Q & _).
  assert (H : forall s s', go s s' -> forall tr, reach slow_providers tr s ->
    exists tr', reach slow_providers (tr' ++ tr) s' /\
      (forall l, In l tr' -> match l with CrawlStep | Read _ | WStep | WHandle _ => True | _ => False end) /\
      forall i q, offered s' i q <-> offered s i q).
  { clear. induction 1 as [s|s l s1 s2 O C S G IH]; intros tr R.
    - exists []. split; [exact R|]. split; [intros l []|tauto].
    - assert (OK : slow_providers s l).
      { destruct l; cbn in *; auto. intros F. revert C. generalize (firstn n (queue (ker s))) F. clear.
        induction l as [|[w e] r IH]; cbn; [tauto|]. intros F C. destruct e as [i|q|q|]; try (apply IH; [exact F|exact C]).
        apply andb_true_iff in C. destruct C as [C1 C2]. destruct F as [F|F]; [|apply IH; assumption].
        apply negb_true_iff in C1. rewrite <- not_true_iff_false in C1. apply C1. apply existsb_exists. exists (w, EDelete q). split; [exact F|].
        unfold says. cbn [fst snd]. rewrite Nat.eqb_refl, Bool.eqb_reflx. reflexivity. }
      pose proof (r_step _ _ _ _ _ R OK S) as R1. destruct (IH _ R1) as (tr' & R2 & A & B). exists (tr' ++ [l]).
      rewrite <- app_assoc. split; [exact R2|]. split.
      + intros l' Z. apply in_app_or in Z. destruct Z as [Z|[<-|[]]]; [apply A; exact Z|destruct l; cbn in *; tauto].
      + intros i q. rewrite B. destruct (reach_calm _ _ R) as [I _]. pose proof (i_wf _ I) as F.
        unfold offered. clear - O S I F. unfold step in S. rewrite (i_dead _ I) in S. destruct l; cbn in O; try contradiction.
        * destruct (crw s) as [[wh ph ws is fo]|] eqn:CX; [|discriminate]. injection S as <-. unfold crawl_step. cbn [c_phase c_who c_wds c_insts c_found].
          assert (AW : forall d k w, add_watch (ker s) d = (k, w) -> files k = files (ker s)).
          { intros d k w E. destruct (add_watch_spec _ _ _ _ _ _ _ F E) as (_ & _ & Z & _). exact Z. }
          destruct ph as [| |[|j r]|[|p r]]; try tauto.
          -- destruct (add_watch (ker s) (crawl_dir wh)) as [k w] eqn:E. pose proof (AW _ _ _ E) as Z. destruct (crawl_dir wh); cbn; rewrite Z; tauto.
          -- destruct (add_watch (ker s) (Some j)) as [k w] eqn:E. pose proof (AW _ _ _ E) as Z. cbn. rewrite Z. tauto.
          -- unfold finish_crawl. cbn [c_who c_wds c_found]. destruct wh as [h1 d1 q1|w0 j].
             ++ destruct (transfer_new _ _ _ _ _ _ _); cbn; tauto.
             ++ destruct ws as [|[w d1] [|]]; try (cbn; tauto). destruct (watches (cl s) w0); [|cbn; tauto]. destruct (link_all _ _ _); cbn; tauto.
        * destruct (wrk s); try discriminate. injection S as <-. cbn. tauto.
        * destruct (crw s) as [cx|] eqn:CN; [discriminate|]. unfold worker_step in S.
          destruct (wrk s) as [|b|[|[w e] r] im cre|[|h' keys] cre|[|[w e] r] im|[|h' keys]] eqn:WK; try discriminate; try (injection S as <-; cbn; tauto).
          -- destruct (transfer_all_spec (obsolete (cl s)) _ _ _ F) as (k & c & ign & T & SH & _). rewrite T in S. injection S as <-.
             cbn. rewrite (sh_files _ _ _ _ _ _ SH). tauto.
          -- destruct (watches (cl s) w) as [y|]; [|injection S as <-; cbn; tauto].
             destruct e as [i'|q'|q'|], (w_dir y) as [j|]; injection S as <-; cbn; tauto.
          -- destruct (watches (cl s) w) as [y|]; [|injection S as <-; cbn; tauto].
             destruct e as [i'|q'|q'|], (w_dir y) as [j|]; injection S as <-; cbn; tauto.
        * destruct (crw s) as [cx|] eqn:CN; [discriminate|]. destruct (wrk s) as [| | |keys cre| |keys]; try discriminate;
            destruct (mem h keys); try discriminate; injection S as <-; cbn; tauto. }
  destruct (H s s' G tr R) as (tr' & A & B & C). exists tr', s'. auto.
Qed.

(** ** Runs to look at *)

Fixpoint run (s : st) (ls : list label) : option st :=
  match ls with
  | [] => Some s
  | l :: r => match step s l with Some s' => run s' r | None => None end
  end.

Fixpoint all_ok (okb : st -> label -> bool) (s : st) (ls : list label) : bool :=
  match ls with
  | [] => true
  | l :: r => okb s l && match step s l with Some s' => all_ok okb s' r | None => true end
  end.

Lemma run_reach (ok : st -> label -> Prop) okb ls : (forall s l, okb s l = true -> ok s l) ->
  forall tr s s', reach ok tr s -> all_ok okb s ls = true -> run s ls = Some s' -> reach ok (rev ls ++ tr) s'.
Proof.
  intros K. induction ls as [|l r IH]; cbn; intros tr s s' R A E; [injection E as <-; exact R|].
  apply andb_true_iff in A. destruct A as [A B]. destruct (step s l) as [s1|] eqn:S; [|discriminate].
  rewrite <- app_assoc. cbn. apply (IH _ s1 s'); auto. apply (r_step _ _ _ _ _ R); auto.
Qed.

Definition anyb (_ : st) (_ : label) : bool := true.

Definition slowb (s : st) (l : label) : bool :=
  match l with Read n => no_flip (firstn n (queue (ker s))) | FoundFail => false | _ => true end.

Lemma slowb_ok s l : slowb s l = true -> slow_providers s l.
Proof.
  destruct l; cbn; try discriminate; auto. intros C F. revert C F. generalize (firstn n (queue (ker s))).
  induction l as [|[w e] r IH]; cbn; [tauto|]. intros C F. destruct e as [i|q|q|]; try (apply IH; assumption).
  apply andb_true_iff in C. destruct C as [C1 C2]. destruct F as [F|F]; [|apply IH; assumption].
  apply negb_true_iff in C1. rewrite <- not_true_iff_false in C1. apply C1. apply existsb_exists. exists (w, EDelete q). split; [exact F|].
  unfold says. cbn [fst snd]. rewrite Nat.eqb_refl, Bool.eqb_reflx. reflexivity.
Qed.

(** A search for instance 1: watch, two checks, the end of the crawl. *)
Definition begin (h : handle) (d : dir) : list label := StartFind h d false :: repeat CrawlStep 4.

(** A provider offers and withdraws between two reads of the client: the two events come in one batch,
    whose removals are handled before its creations. The search reports for ever an instance that nobody offers. *)
Definition flip_run : list label :=
  begin 0 (Some 1) ++ [FsCreate 1 false; FsDelete 1 false; Read 2; WStep; WStep; WStep; WHandle 0; WStep; WStep; WStep; WHandle 0; WStep].

Theorem C75_offer_and_withdraw_refuted :
  exists tr s, reach no_failure tr s /\ at_rest s /\ running tr 0 (Some 1) false /\
    last_told s 0 = [1] /\ ~ offered s 1 false.
Proof.
  destruct (run init flip_run) as [s|] eqn:E; [|discriminate]. vm_compute in E. injection E as <-.
  exists (rev flip_run ++ []). eexists. split.
  - apply (run_reach no_failure (fun _ l => match l with FoundFail => false | _ => true end)) with (s := init).
    + intros s l H. unfold no_failure. destruct l; discriminate.
    + apply r_init.
    + reflexivity.
    + vm_compute. reflexivity.
  - split; [split; [reflexivity|split; reflexivity]|]. split.
    + split; [|split]; cbn; intuition discriminate.
    + split; [reflexivity|]. cbn. tauto.
Qed.

(** The hypotheses are met: a search for any instance sees instance 1 come and, in a later batch, go, and 2 stay. *)
Definition slow_run : list label :=
  [FsMkdir 1; StartFind 0 None false] ++ repeat CrawlStep 7 ++
  [FsCreate 1 false; Read 1; WStep; WStep; WStep; WStep; WStep; WHandle 0; WStep] ++
  [FsMkdir 2; FsCreate 2 false; Read 1; WStep; WStep; WStep; WStep] ++ repeat CrawlStep 4 ++ [WStep; WHandle 0; WStep] ++
  [FsDelete 1 false; Read 1; WStep; WStep; WStep; WHandle 0; WStep; WStep; WStep].

Example C75_accurate_example :
  exists s, reach slow_providers (rev slow_run ++ []) s /\ at_rest s /\ running (rev slow_run ++ []) 0 None false /\
    last_told s 0 = [2] /\ offered s 2 false /\ calls 0 (log (cl s)) = [[2]; [2; 1]; [1]].
Proof.
  destruct (run init slow_run) as [s|] eqn:E; [|vm_compute in E; discriminate]. vm_compute in E. injection E as <-. eexists. split.
  - apply (run_reach slow_providers slowb slow_run slowb_ok) with (s := init).
    + apply r_init.
    + vm_compute. reflexivity.
    + vm_compute. reflexivity.
  - split; [split; [reflexivity|split; reflexivity]|]. split; [split; [|split]; cbn; intuition discriminate|].
    split; [reflexivity|]. split; [cbn; auto|reflexivity].
Qed.

(** * C76: a handler is called only when something changed *)

Theorem C76_only_changes tr s h : reach any tr s ->
  forall later x earlier, calls h (log (cl s)) = later ++ x :: earlier ->
  ~ (forall i, In i x <-> In i (hd [] earlier)).
Proof.
  intros R later x earlier E. destruct (reach_any _ _ _ R) as [T _]. pose proof (t_diff _ _ T h) as D. rewrite E in D. clear E.
  induction later as [|y r IH]; cbn in D; [|apply IH; apply D]. destruct D as [D _]. exact D.
Qed.

(** Only instances that the search wants. *)
Theorem C76_only_wanted tr s h d q l i : reach any tr s -> In (StartFind h d q) tr ->
  In l (calls h (log (cl s))) -> In i l -> wanted d i.
Proof.
  intros R A L Z. destruct (reach_any _ _ _ R) as [T _]. destruct (t_log _ _ T h l L) as (d' & q' & kn & A' & ->).
  destruct (t_uniq _ _ T h _ _ _ _ A A') as [<- _]. apply In_handles in Z. apply Z.
Qed.

(** A search for one instance is told in turns that it is there and that it is gone, first that it is there. *)
Fixpoint turns (i : inst) (n : nat) : list (list inst) :=
  match n with
  | 0 => []
  | S m => (if Nat.even m then [i] else []) :: turns i m
  end.

Theorem C76_in_turns tr s h i q : reach any tr s -> In (StartFind h (Some i) q) tr ->
  calls h (log (cl s)) = turns i (length (calls h (log (cl s)))).
Proof.
  intros R A. destruct (reach_any _ _ _ R) as [T _]. pose proof (t_diff _ _ T h) as D.
  assert (F : forall l, In l (calls h (log (cl s))) -> l = [i] \/ l = []).
  { intros l L. destruct (t_log _ _ T h l L) as (d' & q' & kn & A' & ->). destruct (t_uniq _ _ T h _ _ _ _ A A') as [<- _].
    unfold handles. destruct (has _ _); auto. }
  revert D F. generalize (calls h (log (cl s))). clear. intros l.
  induction l as [|x r IH]; intros D F; [reflexivity|]. cbn [length turns]. destruct D as [D1 D2].
  assert (E : r = turns i (length r)) by (apply IH; [exact D2|intros y Y; apply F; right; exact Y]). f_equal; [|exact E].
  destruct r as [|y r']; cbn [length hd] in *.
  - destruct (F x (or_introl eq_refl)) as [->| ->]; [reflexivity|]. exfalso. apply D1. intros j. tauto.
  - cbn [turns] in E. injection E as EY _.
    rewrite Nat.even_succ, <- Nat.negb_even. destruct (Nat.even (length r')); cbn [negb]; rewrite EY in D1;
      destruct (F x (or_introl eq_refl)) as [->| ->]; try reflexivity; exfalso; apply D1; intros j; tauto.
Qed.

Example C76_in_turns_example :
  exists s, reach any (rev flip_run ++ []) s /\ In (StartFind 0 (Some 1) false) (rev flip_run ++ []) /\ calls 0 (log (cl s)) = [[1]].
Proof.
  destruct (run init flip_run) as [s|] eqn:E; [|discriminate]. vm_compute in E. injection E as <-. eexists. split.
  - apply (run_reach any anyb flip_run) with (s := init); [intros; exact I|apply r_init|reflexivity|vm_compute; reflexivity].
  - split; [cbn; tauto|reflexivity].
Qed.

(** * C77: after StopFindService *)

Theorem C77_no_call_after_stop tr s h d q s1 ls s2 :
  reach any tr s -> In (StartFind h d q) tr -> step s (StopFind h) = Some s1 -> run s1 ls = Some s2 ->
  calls h (log (cl s2)) = calls h (log (cl s)).
Proof.
  intros R A S E. destruct (reach_any _ _ _ R) as [T [I|D]]; [|rewrite (dead_stays _ _ D) in S; discriminate].
  assert (ST : stopped h s1 /\ calls h (log (cl s1)) = calls h (log (cl s))).
  { unfold step in S. rewrite (i_dead _ I) in S. destruct (may_enter s) eqn:ME; [|discriminate]. injection S as <-. cbn. split; [|reflexivity].
    split; [|split].
    - cbn. apply (t_used _ _ T). exists d, q. exact A.
    - right. cbn. apply In_add. auto.
    - intros x d' q' X. cbn in X. unfold may_enter in ME. rewrite X in ME. discriminate. }
  destruct ST as [ST CE]. rewrite <- CE. pose proof (r_step any _ _ _ _ R Logic.I S) as R1. clear CE S R A T I s. revert s1 ST E R1. generalize (StopFind h :: tr). clear tr.
  induction ls as [|l r IH]; intros tr s1 ST E R; cbn in E; [injection E as <-; reflexivity|].
  destruct (step s1 l) as [s3|] eqn:S; [|discriminate]. destruct (reach_any _ _ _ R) as [T [I|D]]; [|rewrite (dead_stays _ _ D) in S; discriminate].
  destruct (stopped_step tr s1 l s3 h I T S ST) as [ST3 CE]. rewrite <- CE.
  apply (IH (l :: tr) s3 ST3 E). apply (r_step any _ _ _ _ R Logic.I S).
Qed.

(** The hypotheses are met, with the instance appearing after the stop. *)
Example C77_no_call_after_stop_example :
  exists s1 s2, run init (begin 0 (Some 1) ++ [StopFind 0]) = Some s1 /\
    run s1 [FsCreate 1 false; Read 1; WStep; WStep; WStep; WStep; WStep; WStep] = Some s2 /\ offered s2 1 false /\ calls 0 (log (cl s2)) = [].
Proof. eexists. eexists. split; [vm_compute; reflexivity|]. split; [vm_compute; reflexivity|]. split; [cbn; auto|reflexivity]. Qed.

(** * C78: FindService *)

(** The states of the file system while FindService runs, newest first. Flag files lie in instance directories. *)
Inductive finding (d : dir) (q : bool) : list kernel -> kernel * fphase -> Prop :=
| f_init k : (forall i q', In (i, q') (files k) -> In i (dirs k)) -> finding d q [k] (k, FList)
| f_step hist s l s' : finding d q hist s -> find_step d q s l = Some s' -> finding d q (fst s' :: hist) s'.

Definition there (k : kernel) (i : inst) (q : bool) : Prop := In (i, q) (files k).

Lemma fs_files k l k' : fs_step k l = Some k' -> (forall i q, In (i, q) (files k) -> In i (dirs k)) -> forall i q, In (i, q) (files k') -> In i (dirs k').
Proof.
  intros S F i q. destruct l; cbn in S; try discriminate.
  - injection S as <-. unfold mkdir. destruct (mem i0 (dirs k)); cbn; [apply F|]. intros Z. right. apply (F i q Z).
  - destruct (mem i0 (dirs k)) eqn:M; [|discriminate]. destruct (negb _); [|discriminate]. injection S as <-. cbn. intros [E|Z]; [|apply (F i q Z)].
    injection E as <- _. apply mem_In. exact M.
  - destruct (has _ _); [|discriminate]. injection S as <-. cbn. intros Z. apply filter_In in Z. apply (F i q). apply Z.
Qed.

Lemma finding_inv d q hist s : finding d q hist s ->
  (exists rest, hist = fst s :: rest) /\
  (forall i q', In (i, q') (files (fst s)) -> In i (dirs (fst s))) /\
  match snd s with
  | FList => True
  | FCheck todo f =>
      (forall i q', In (i, q') f -> exists k, In k hist /\ there k i q') /\
      (forall i, wanted d i -> (forall k, In k hist -> there k i q) -> In (i, q) todo \/ In (i, q) f)
  | FDone l =>
      forall i, (In i l -> wanted d i /\ exists k, In k hist /\ there k i q) /\
                (wanted d i -> (forall k, In k hist -> there k i q) -> In i l)
  end.
Proof.
  induction 1 as [k F|hist [k ph] l s' R ((rest & H) & F & P) S]; [split; [exists []; reflexivity|split; [exact F|exact I]]|].
  cbn [fst snd] in *. unfold find_step in S. destruct l as [l|]; cbn [fst snd] in S.
  - destruct (fs_step k l) as [k'|] eqn:E; [|discriminate]. injection S as <-. cbn [fst snd].
    split; [exists hist; reflexivity|]. split; [apply (fs_files _ _ _ E F)|]. destruct ph as [|todo f|res]; [exact I| |].
    + destruct P as [P1 P2]. split.
      * intros i q' Z. destruct (P1 i q' Z) as (k0 & A & B). exists k0. split; [right; exact A|exact B].
      * intros i WA Z. apply P2; [exact WA|]. intros k0 Z0. apply Z. right. exact Z0.
    + intros i. destruct (P i) as [P1 P2]. split.
      * intros Z. destruct (P1 Z) as (WA & k0 & A & B). split; [exact WA|]. exists k0. split; [right; exact A|exact B].
      * intros WA Z. apply P2; [exact WA|]. intros k0 Z0. apply Z. right. exact Z0.
  - destruct ph as [|[|p r] f|res]; try discriminate; injection S as <-; cbn [fst snd]; (split; [exists hist; reflexivity|]; split; [exact F|]).
    + split; [intros i q' []|]. intros i WA Z. left. apply In_pairs.
      destruct WA as [->| ->]; [|left; reflexivity]. apply (F i q). apply (Z k). left. reflexivity.
    + destruct P as [P1 P2]. intros i. rewrite In_handles. split.
      * intros [A B]. split; [exact B|]. destruct (P1 i q A) as (k0 & C & D). exists k0. split; [right; exact C|exact D].
      * intros WA Z. split; [|exact WA]. destruct (P2 i WA) as [[]|Q]; [intros k0 Z0; apply Z; right; exact Z0|exact Q].
    + destruct P as [P1 P2]. split.
      * intros i q' Z.
        assert (Z' : In (i, q') f \/ (i, q') = p /\ has p (files k) = true) by (destruct (has p (files k)); [apply In_insert in Z; tauto|auto]).
        destruct Z' as [Z'|[<- HA]].
        -- destruct (P1 i q' Z') as (k0 & A & B). exists k0. split; [right; exact A|exact B].
        -- exists k. split; [left; reflexivity|apply has_In; exact HA].
      * intros i WA Z. destruct (P2 i WA) as [[->|Q]|Q].
        -- intros k0 Z0. apply Z. right. exact Z0.
        -- right. assert (HA : has (i, q) (files k) = true) by (apply has_In; apply (Z k); left; reflexivity). rewrite HA. apply In_insert. auto.
        -- left. exact Q.
        -- right. destruct (has p (files k)); [apply In_insert; auto|exact Q].
Qed.

Theorem C78_offered_throughout_found d q hist k l i :
  finding d q hist (k, FDone l) -> wanted d i -> (forall k', In k' hist -> there k' i q) -> In i l.
Proof. intros R. destruct (finding_inv _ _ _ _ R) as (_ & _ & P). apply P. Qed.

Theorem C78_found_was_offered d q hist k l i :
  finding d q hist (k, FDone l) -> In i l -> wanted d i /\ exists k', In k' hist /\ there k' i q.
Proof. intros R. destruct (finding_inv _ _ _ _ R) as (_ & _ & P). apply P. Qed.

Fixpoint find_run (d : dir) (q : bool) (hist : list kernel) (s : kernel * fphase) (ls : list flabel) : option (list kernel * (kernel * fphase)) :=
  match ls with
  | [] => Some (hist, s)
  | l :: r => match find_step d q s l with Some s' => find_run d q (fst s' :: hist) s' r | None => None end
  end.

Lemma find_run_finding d q ls : forall hist s hist' s', finding d q hist s -> find_run d q hist s ls = Some (hist', s') -> finding d q hist' s'.
Proof.
  induction ls as [|l r IH]; cbn; intros hist s hist' s' R E; [injection E as <- <-; exact R|].
  destruct (find_step d q s l) as [s1|] eqn:S; [|discriminate]. apply (IH _ _ _ _ (f_step _ _ _ _ _ _ R S) E).
Qed.

(** Instance 1 is offered throughout, 2 goes between its check and the end, 3 comes too late. *)
Definition find_k0 : kernel := mkK [1; 2] [(1, false); (2, false)] (fun _ => None) 0 [].

Example C78_example :
  exists hist k, finding None false hist (k, FDone [2; 1]) /\ (forall k', In k' hist -> there k' 1 false) /\ ~ there k 2 false /\ there k 3 false.
Proof.
  destruct (find_run None false [find_k0] (find_k0, FList)
    [FStep; FStep; FFs (FsMkdir 3); FStep; FFs (FsCreate 3 false); FStep; FStep; FFs (FsDelete 2 false); FStep]) as [[hist [k ph]]|] eqn:E;
    [|vm_compute in E; discriminate].
  assert (F : finding None false hist (k, ph)).
  { refine (find_run_finding None false _ _ _ _ _ _ E). apply (f_init None false find_k0). cbn. intros i q' [Z|[Z|[]]]; injection Z as <- _; auto. }
  vm_compute in E. injection E as <- <- <-. eexists. eexists. split; [exact F|]. split; [|split].
  - intros k' Z. cbn in Z. unfold there. repeat (destruct Z as [<-|Z]; [cbn; tauto|]). destruct Z.
  - unfold there. cbn. intuition discriminate.
  - unfold there. cbn. auto.
Qed.

(** * C79: no assertion of the client fails *)

Theorem C79_no_abort_partial tr s : reach no_failure tr s -> dead s = false.
Proof.
  intros R. apply i_dead. apply (reach_inv no_failure tr s); [|exact R]. intros s0 l H. exact H.
Qed.

(** If watching the directory of a new instance fails over and over, every consumer that searches for any
    instance of the service is terminated. *)
Theorem C79_crawl_failure_refuted : exists tr s, reach any tr s /\ dead s = true.
Proof.
  set (ls := [StartFind 0 None false] ++ repeat CrawlStep 4 ++ [FsMkdir 1; Read 1; WStep; WStep; WStep; WStep; CrawlStep; CrawlAgain; CrawlStep; FoundFail]).
  destruct (run init ls) as [s|] eqn:E; [|vm_compute in E; discriminate].
  exists (rev ls ++ []), s. split.
  - apply (run_reach any anyb ls) with (s := init); [intros; exact I|apply r_init|vm_compute; reflexivity|exact E].
  - vm_compute in E. injection E as <-. reflexivity.
Qed.

(** * C80: what a proxy is told never terminates it *)

Theorem C80_proxy_never_aborts tr s h i q : reach any tr s -> In (StartFind h (Some i) q) tr ->
  fold_left proxy_call (rev (calls h (log (cl s)))) (Some Offered) <> None.
Proof.
  intros R A. rewrite (C76_in_turns tr s h i q R A). generalize (length (calls h (log (cl s)))). clear.
  assert (H : forall n, fold_left proxy_call (rev (turns i n)) (Some Offered) =
     Some (match n with 0 | 1 => Offered | _ => if Nat.even n then StopOffered else ReOffered end)).
  { induction n as [|n IH]; [reflexivity|]. cbn [turns rev]. rewrite fold_left_app, IH. destruct n as [|[|n]]; [reflexivity|reflexivity|].
    cbn [fold_left]. change (Nat.even (S (S n))) with (Nat.even n). change (Nat.even (S (S (S n)))) with (Nat.even (S n)).
    rewrite Nat.even_succ, <- Nat.negb_even. destruct (Nat.even n); reflexivity. }
  intros n. rewrite H. discriminate.
Qed.

Example C80_example : fold_left proxy_call [[1]; []; [1]; []] (Some Offered) = Some StopOffered.
Proof. reflexivity. Qed.

Print Assumptions C75_accurate_partial.
Print Assumptions C75_settles_partial.
Print Assumptions C75_offer_and_withdraw_refuted.
Print Assumptions C76_only_changes.
Print Assumptions C76_only_wanted.
Print Assumptions C76_in_turns.
Print Assumptions C77_no_call_after_stop.
Print Assumptions C78_offered_throughout_found.
Print Assumptions C78_found_was_offered.
Print Assumptions C79_no_abort_partial.
Print Assumptions C79_crawl_failure_refuted.
Print Assumptions C80_proxy_never_aborts.
