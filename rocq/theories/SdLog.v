(** Proofs about service discovery: the calls of users' handlers. *)
From Verif Require Import Base SdModel SdProofs SdInv SdInv1.

Local Arguments handles : simpl never.
Local Arguments merge : simpl never.
Local Arguments transfer_all : simpl never.
Local Arguments transfer_new : simpl never.

(** What the handler of a search was called with, newest first. *)
Definition calls (h : handle) (l : list (handle * list inst)) : list (list inst) :=
  map snd (filter (fun e => fst e =? h) l).

Definition told (h : handle) (l : list (handle * list inst)) : list inst := hd [] (calls h l).

Definition same (a b : list inst) : Prop := forall i, In i a <-> In i b.

(** Every entry differs from the one before it, the oldest from the empty set. *)
Fixpoint changing (l : list (list inst)) : Prop :=
  match l with
  | [] => True
  | x :: r => ~ same x (hd [] r) /\ changing r
  end.

(** The search itself is the same; its watches may differ. *)
Definition kept (c c' : client) (h : handle) : Prop :=
  match searches c h, searches c' h with
  | Some x, Some y => s_dir y = s_dir x /\ s_q y = s_q x /\ s_prev y = s_prev x
  | None, None => True
  | _, _ => False
  end.

Lemma kept_refl c h : kept c c h.
Proof. unfold kept. destruct (searches c h); auto. Qed.

Lemma kept_same c c' h : searches c' h = searches c h -> kept c c' h.
Proof. unfold kept. intros ->. destruct (searches c h); auto. Qed.

Lemma kept_grown c N c' h : grown c N c' -> kept c c' h.
Proof.
  intros G. unfold kept. destruct (searches c h) as [x|] eqn:X.
  - destruct (g_some _ _ _ G h x X) as (y & Y & A & B & C & _). rewrite Y. auto.
  - rewrite (g_none _ _ _ G h X). exact I.
Qed.

Inductive effect (s : st) (l : label) (s' : st) : Prop :=
| ef_same : log (cl s') = log (cl s) -> (forall h, kept (cl s) (cl s') h) ->
    (forall h, In h (obsolete (cl s')) -> In h (obsolete (cl s)) \/ l = StopFind h) ->
    (forall h, In h (obsolete (cl s)) -> In h (obsolete (cl s'))) -> effect s l s'
| ef_drop : log (cl s') = log (cl s) -> (forall h, In h (obsolete (cl s)) -> searches (cl s') h = None) ->
    (forall h, ~ In h (obsolete (cl s)) -> kept (cl s) (cl s') h) -> obsolete (cl s') = [] -> crw s = None -> effect s l s'
| ef_tell h x y : searches (cl s) h = Some x -> ~ In h (obsolete (cl s)) ->
    same_set (s_prev x) (s_prev y) = false -> s_prev y = handles (known (cl s)) (s_dir x) (s_q x) ->
    searches (cl s') h = Some y -> s_dir y = s_dir x -> s_q y = s_q x ->
    log (cl s') = (h, s_prev y) :: log (cl s) -> (forall h', h' <> h -> kept (cl s) (cl s') h') ->
    obsolete (cl s') = obsolete (cl s) -> effect s l s'
| ef_new h d q y kn : searches (cl s) h = None -> searches (cl s') h = Some y -> s_dir y = d -> s_q y = q ->
    s_prev y = handles kn d q ->
    log (cl s') = (match s_prev y with [] => log (cl s) | _ => (h, s_prev y) :: log (cl s) end) ->
    (forall h', h' <> h -> kept (cl s) (cl s') h') -> obsolete (cl s') = obsolete (cl s) -> crw s' = None ->
    (l = StartFind h d q \/ exists x, crw s = Some x /\ c_who x = Start h d q) -> effect s l s'.

Lemma ef_refl s l s' : cl s' = cl s -> effect s l s'.
Proof.
  intros E. apply ef_same; rewrite E; auto. intros h. apply kept_refl.
Qed.

Lemma ef_known s l s' c : cl s' = set_known c (known (cl s')) -> c = cl s -> effect s l s'.
Proof.
  intros E ->. apply ef_same; rewrite E; cbn; auto. intros h. apply kept_same. reflexivity.
Qed.

Lemma new_effect s l s' h d q c1 N kn found :
  searches (cl s) h = None ->
  grown (set_search (cl s) h (Some (mkS d q [] (handles kn d q)))) N c1 ->
  cl s' = (match handles kn d q with [] => set_known c1 (merge found (known c1)) | _ => call (set_known c1 (merge found (known c1))) h (handles kn d q) end) ->
  crw s' = None ->
  (l = StartFind h d q \/ exists x, crw s = Some x /\ c_who x = Start h d q) -> effect s l s'.
Proof.
  intros SN G E C L.
  assert (SE : forall h', searches (cl s') h' = searches c1 h') by (intros h'; rewrite E; destruct (handles kn d q); reflexivity).
  destruct (g_some _ _ _ G h (mkS d q [] (handles kn d q))) as (y & Y & A & B & D & _).
  { cbn. rewrite Nat.eqb_refl. reflexivity. }
  cbn in A, B, D.
  apply (ef_new _ _ _ h d q y kn); auto.
  - rewrite SE. exact Y.
  - rewrite E, D. destruct (handles kn d q); cbn; rewrite (g_log _ _ _ G); reflexivity.
  - intros h' NE. pose proof (kept_grown _ _ _ h' G) as K. unfold kept in *. rewrite SE. cbn in K.
    rewrite (proj2 (Nat.eqb_neq h h')) in K by congruence. exact K.
  - rewrite E. destruct (handles kn d q); cbn; apply (g_obs _ _ _ G).
Qed.

Lemma call_effect s l s' h : cl s' = call_handler (cl s) h -> effect s l s'.
Proof.
  intros E. destruct (searches (cl s) h) as [x|] eqn:X; [|apply ef_refl; rewrite E; unfold call_handler; rewrite X; reflexivity].
  destruct (mem h (obsolete (cl s))) eqn:M; [apply ef_refl; rewrite E; unfold call_handler; rewrite X, M; reflexivity|].
  destruct (same_set (s_prev x) (handles (known (cl s)) (s_dir x) (s_q x))) eqn:SS;
    [apply ef_refl; rewrite E; unfold call_handler; rewrite X, M, SS; reflexivity|].
  apply mem_false in M.
  apply (ef_tell _ _ _ h x (mkS (s_dir x) (s_q x) (s_wds x) (handles (known (cl s)) (s_dir x) (s_q x)))); auto;
    rewrite E; unfold call_handler; rewrite X, (proj2 (mem_false _ _) M), SS; cbn.
  - rewrite Nat.eqb_refl. reflexivity.
  - reflexivity.
  - intros h' NE. apply kept_same. cbn. rewrite (proj2 (Nat.eqb_neq h h')) by congruence. reflexivity.
  - reflexivity.
Qed.

Lemma step_effect s l s' : Inv s -> step s l = Some s' -> effect s l s'.
Proof.
  intros I S. unfold step in S. rewrite (i_dead _ I) in S.
  pose proof (i_wf _ I) as W.
  destruct l as [i|i q|i q|h d q|h| |h| | |n| |h].
  - injection S as <-. apply ef_refl. reflexivity.
  - destruct (_ && _); [injection S as <-; apply ef_refl; reflexivity|discriminate].
  - destruct (has _ _); [injection S as <-; apply ef_refl; reflexivity|discriminate].
  - destruct (may_enter s) eqn:ME; [|discriminate]. destruct (mem h (used s)) eqn:MU; [discriminate|]. cbn [andb negb] in S.
    assert (CN : crw s = None) by (unfold may_enter in ME; destruct (crw s); [discriminate|reflexivity]). rewrite CN in W.
    apply mem_false in MU.
    assert (SN : searches (cl s) h = None).
    { destruct (searches (cl s) h) eqn:Z; [|reflexivity]. exfalso. apply MU. apply (i_used _ I _ _ Z). }
    destruct (watched (cl s) d) as [[[w|] ch]|] eqn:T; [|injection S as <-; apply ef_refl; reflexivity|injection S as <-; apply ef_refl; reflexivity].
    destruct (cached_links _ _ _ _ _ _ W T) as (ws & E & A & B & C). rewrite E in S.
    destruct (transfer_new_spec _ _ _ _ h d q ws [] (handles (known (cl s)) d q) W) as (c1 & G & W' & TN).
    { apply no_fnd_none. }
    { exact SN. }
    { intros w' d' Z. apply (A w' d' Z). }
    { exists w. exact B. }
    { exact C. }
    { intros i q' []. }
    rewrite TN in S. injection S as <-.
    eapply (new_effect s _ _ h d q c1 _ (known (cl s)) [] SN G); [reflexivity|exact CN|left; reflexivity].
  - destruct (may_enter s); [|discriminate]. injection S as <-. apply ef_same; cbn.
    + reflexivity.
    + intros h'. apply kept_same. reflexivity.
    + intros h' Z. apply In_add in Z. destruct Z as [->|Z]; auto.
    + intros h' Z. apply In_add. auto.
  - destruct (crw s) as [x|] eqn:CX; [|discriminate]. injection S as <-.
    pose proof (i_crw _ I x CX) as X. destruct x as [wh ph ws is fo]. unfold crawl_step. cbn [c_phase c_who c_wds c_insts c_found].
    pose proof (x_who _ _ _ _ _ _ X) as XW. cbn [c_who] in XW.
    destruct ph as [| |[|i r]|[|p r]].
    + destruct (add_watch (ker s) (crawl_dir wh)) as [k w]. destruct (crawl_dir wh); apply ef_refl; reflexivity.
    + apply ef_refl. reflexivity.
    + apply ef_refl. reflexivity.
    + destruct (add_watch (ker s) (Some i)) as [k w]. apply ef_refl. reflexivity.
    + unfold finish_crawl. cbn [c_who c_wds c_found].
      pose proof (x_every _ _ _ _ _ _ [] X eq_refl) as XE. cbn [c_insts c_wds] in XE.
      destruct wh as [h d q|w0 i].
      * destruct XW as [HU SN].
        destruct (transfer_new_spec _ _ _ _ h d q ws fo (handles fo d q) W) as (c1 & G & W' & TN).
        { apply (no_fnd_start _ h d q). reflexivity. }
        { exact SN. }
        { apply (x_wds _ _ _ _ _ _ X). }
        { apply (x_main _ _ _ _ _ _ X). discriminate. }
        { intros w i Z DI. pose proof (x_none _ _ _ _ _ _ X w Z) as CD.
          destruct (x_list _ _ _ _ _ _ X CD) as (A & B). destruct (A i DI) as [Q|Q]; [left; apply B; exact Q|].
          right. apply Q. apply (x_wds _ _ _ _ _ _ X w None Z). }
        { intros i q' Z. destruct (XE i) as (w & A & _); [apply (x_found _ _ _ _ _ _ X i q' Z)|exists w; exact A]. }
        rewrite TN. eapply (new_effect s _ _ h d q c1 _ fo fo SN G); [reflexivity|reflexivity|]. right. eexists. split; [exact CX|reflexivity].
      * destruct XW as (DI & x0 & X0 & D0 & H0). destruct (x_one _ _ _ _ _ _ X i) as ((w & WE) & IE & _); [discriminate|reflexivity|].
        cbn [c_wds] in WE. cbn [c_insts] in IE. subst ws is. rewrite X0.
        pose proof (x_wds _ _ _ _ _ _ X w (Some i) (or_introl eq_refl)) as KW.
        destruct (found_grown _ _ _ _ w0 x0 i w W X0 KW) as (c' & E & G).
        rewrite E. apply ef_same; cbn.
        -- apply (g_log _ _ _ G).
        -- intros h. pose proof (kept_grown _ _ _ h G) as K. exact K.
        -- rewrite (g_obs _ _ _ G). auto.
        -- rewrite (g_obs _ _ _ G). auto.
    + apply ef_refl. reflexivity.
  - destruct (crw s) as [[[h0 d q|w i] ph ws is fo]|]; try discriminate. destruct (h =? h0); [|discriminate].
    injection S as <-. apply ef_refl. reflexivity.
  - destruct (crw s) as [[y ph ws is fo]|]; try discriminate. injection S as <-. apply ef_refl. reflexivity.
  - destruct (crw s) as [[[h0 d q|w i] ph ws is fo]|]; try discriminate. injection S as <-. apply ef_refl. reflexivity.
  - destruct (wrk s); try discriminate. injection S as <-. apply ef_refl. reflexivity.
  - destruct (crw s) as [cx|] eqn:CN; [discriminate|]. unfold worker_step in S.
    destruct (wrk s) as [|b|[|[w e] r] im cre|[|h keys] cre|[|[w e] r] im|[|h keys]] eqn:WK; try discriminate;
      try (injection S as <-; apply ef_refl; reflexivity).
    + destruct (transfer_all_spec (obsolete (cl s)) _ _ _ W) as (k & c & ign & T & SH & W'). rewrite T in S. injection S as <-.
      apply ef_drop; cbn; auto.
      * apply (sh_log _ _ _ _ _ _ SH).
      * apply (sh_gone _ _ _ _ _ _ SH).
      * intros h Z. apply kept_same. apply (sh_stay _ _ _ _ _ _ SH h Z).
    + destruct (watches (cl s) w) as [x|]; [|injection S as <-; apply ef_refl; reflexivity].
      destruct e as [i|q|q|], (w_dir x) as [j|]; injection S as <-; try (apply ef_refl; reflexivity).
      apply (ef_known _ _ _ (cl s)); reflexivity.
    + destruct (watches (cl s) w) as [x|]; [|injection S as <-; apply ef_refl; reflexivity].
      destruct e as [i|q|q|], (w_dir x) as [j|]; injection S as <-; try (apply ef_refl; reflexivity).
      apply (ef_known _ _ _ (cl s)); reflexivity.
  - destruct (crw s) as [cx|] eqn:CN; [discriminate|]. destruct (wrk s) as [| | |keys cre| |keys]; try discriminate;
      destruct (mem h keys); try discriminate; injection S as <-; apply (call_effect _ _ _ h); reflexivity.
Qed.

(** Which searches are being started. *)
Lemma step_start s l s' x h d q : Inv s -> step s l = Some s' -> crw s' = Some x -> c_who x = Start h d q ->
  (exists y, crw s = Some y /\ c_who y = Start h d q) \/ l = StartFind h d q.
Proof.
  intros I S CX XW. unfold step in S. rewrite (i_dead _ I) in S.
  assert (SAME : forall c, crw c = crw s -> Some c = Some s' -> (exists y, crw s = Some y /\ c_who y = Start h d q) \/ l = StartFind h d q).
  { intros c E F. injection F as <-. left. exists x. split; [congruence|exact XW]. }
  destruct l as [i|i q'|i q'|h' d' q'|h'| |h'| | |n| |h'].
  - (eapply SAME; [|exact S]; reflexivity).
  - destruct (_ && _); [(eapply SAME; [|exact S]; reflexivity)|discriminate].
  - destruct (has _ _); [(eapply SAME; [|exact S]; reflexivity)|discriminate].
  - destruct (_ && _); [|discriminate].
    destruct (watched (cl s) d') as [[[w|] ch]|].
    + destruct (dirs_of (cl s) (w :: ch)); [|(eapply SAME; [|exact S]; reflexivity)].
      destruct (transfer_new _ _ _ _ _ _ _); (eapply SAME; [|exact S]; reflexivity).
    + injection S as <-. right. cbn in CX. injection CX as <-. cbn in XW. congruence.
    + injection S as <-. right. cbn in CX. injection CX as <-. cbn in XW. congruence.
  - destruct (may_enter s); [(eapply SAME; [|exact S]; reflexivity)|discriminate].
  - destruct (crw s) as [y|] eqn:CY; [|discriminate]. injection S as <-. left. exists y. split; [reflexivity|].
    destruct y as [wh ph ws is fo]. unfold crawl_step in CX. cbn [c_phase c_who c_wds c_insts c_found] in *.
    destruct ph as [| |[|i r]|[|p r]].
    + destruct (add_watch (ker s) (crawl_dir wh)) as [k w]. destruct (crawl_dir wh); cbn in CX; injection CX as <-; exact XW.
    + cbn in CX. injection CX as <-. exact XW.
    + cbn in CX. injection CX as <-. exact XW.
    + destruct (add_watch (ker s) (Some i)) as [k w]. cbn in CX. injection CX as <-. exact XW.
    + unfold finish_crawl in CX. cbn [c_who c_wds c_found] in CX. destruct wh as [h1 d1 q1|w0 i].
      * destruct (transfer_new _ _ _ _ _ _ _); cbn in CX; [discriminate|]. rewrite CY in CX. injection CX as <-. exact XW.
      * destruct ws as [|[w d1] [|]]; cbn in CX; try (rewrite CY in CX; injection CX as <-; exact XW).
        destruct (watches (cl s) w0); [|cbn in CX; rewrite CY in CX; injection CX as <-; exact XW].
        destruct (link_all _ _ _); cbn in CX; [discriminate|]. rewrite CY in CX; injection CX as <-; exact XW.
    + cbn in CX. injection CX as <-. exact XW.
  - destruct (crw s) as [[[h0 d0 q0|w i] ph ws is fo]|]; try discriminate. destruct (h' =? h0); [|discriminate].
    injection S as <-. discriminate.
  - destruct (crw s) as [[y ph ws is fo]|] eqn:CY; try discriminate. injection S as <-. cbn in CX. injection CX as <-. left. eexists. split; [reflexivity|exact XW].
  - destruct (crw s) as [[[h0 d0 q0|w i] ph ws is fo]|] eqn:CY; try discriminate. (eapply SAME; [|exact S]; exact CY).
  - destruct (wrk s); try discriminate. (eapply SAME; [|exact S]; reflexivity).
  - destruct (crw s) as [cx|] eqn:CN; [discriminate|]. exfalso. unfold worker_step in S.
    destruct (wrk s) as [|b|[|[w e] r] im cre|[|h' keys] cre|[|[w e] r] im|[|h' keys]] eqn:WK; try discriminate;
      try (injection S as <-; cbn in CX; congruence).
    + destruct (transfer_all _ _ _) as [[k c]|]; injection S as <-; cbn in CX; congruence.
    + destruct (watches (cl s) w) as [y|]; [|injection S as <-; cbn in CX; congruence].
      destruct e as [i|q'|q'|], (w_dir y) as [j|]; injection S as <-; cbn in CX; congruence.
    + destruct (watches (cl s) w) as [y|]; [|injection S as <-; cbn in CX; congruence].
      destruct e as [i|q'|q'|], (w_dir y) as [j|]; injection S as <-; cbn in CX; try congruence.
      injection CX as <-. discriminate.
  - destruct (crw s) as [cx|] eqn:CN; [discriminate|]. exfalso. destruct (wrk s) as [| | |keys cre| |keys]; try discriminate;
      destruct (mem h' keys); try discriminate; injection S as <-; cbn in CX; congruence.
Qed.

(** A search being started stays so until it is stored or given up. *)
Lemma step_started s l s' x h d q : Inv s -> step s l = Some s' -> crw s = Some x -> c_who x = Start h d q ->
  l <> CrawlFail h ->
  (exists y, crw s' = Some y /\ c_who y = Start h d q) \/ exists y, searches (cl s') h = Some y /\ s_dir y = d /\ s_q y = q.
Proof.
  intros I S CX XW NF. unfold step in S. rewrite (i_dead _ I) in S.
  assert (SAME : forall c, crw c = crw s -> Some c = Some s' -> (exists y, crw s' = Some y /\ c_who y = Start h d q) \/ exists y, searches (cl s') h = Some y /\ s_dir y = d /\ s_q y = q).
  { intros c E F. injection F as <-. left. exists x. split; [congruence|exact XW]. }
  destruct l as [i|i q'|i q'|h' d' q'|h'| |h'| | |n| |h'].
  - (eapply SAME; [|exact S]; reflexivity).
  - destruct (_ && _); [(eapply SAME; [|exact S]; reflexivity)|discriminate].
  - destruct (has _ _); [(eapply SAME; [|exact S]; reflexivity)|discriminate].
  - unfold may_enter in S. rewrite CX in S. discriminate.
  - unfold may_enter in S. rewrite CX in S. discriminate.
  - rewrite CX in S. injection S as <-.
    assert (S' : step s CrawlStep = Some (crawl_step s x)) by (unfold step; rewrite (i_dead _ I), CX; reflexivity).
    pose proof (step_effect s _ _ I S') as EF.
    destruct x as [wh ph ws is fo]. cbn [c_who] in XW. subst wh. unfold crawl_step in *. cbn [c_phase c_who c_wds c_insts c_found crawl_dir] in *.
    destruct ph as [| |[|i r]|[|p r]].
    + destruct (add_watch (ker s) d) as [k w]. destruct d; left; eexists; (split; [reflexivity|reflexivity]).
    + left. eexists. split; reflexivity.
    + left. eexists. split; reflexivity.
    + destruct (add_watch (ker s) (Some i)) as [k w]. left. eexists. split; reflexivity.
    + right. pose proof (i_crw _ I _ CX) as X. pose proof (x_who _ _ _ _ _ _ X) as [HU SN]. cbn [c_who] in HU, SN.
      pose proof (x_every _ _ _ _ _ _ [] X eq_refl) as XE. cbn [c_insts c_wds] in XE. pose proof (i_wf _ I) as W.
      destruct (transfer_new_spec _ _ _ _ h d q ws fo (handles fo d q) W) as (c1 & G & W' & TN).
      { rewrite CX. apply (no_fnd_start _ h d q). reflexivity. }
      { exact SN. }
      { apply (x_wds _ _ _ _ _ _ X). }
      { apply (x_main _ _ _ _ _ _ X). discriminate. }
      { intros w i Z DI. pose proof (x_none _ _ _ _ _ _ X w Z) as CD.
        destruct (x_list _ _ _ _ _ _ X CD) as (A & B). destruct (A i DI) as [Q|Q]; [left; apply B; exact Q|].
        right. apply Q. apply (x_wds _ _ _ _ _ _ X w None Z). }
      { intros i q' Z. destruct (XE i) as (w & A & _); [apply (x_found _ _ _ _ _ _ X i q' Z)|exists w; exact A]. }
      unfold finish_crawl. cbn [c_who c_wds c_found]. rewrite TN. cbn [cl].
      destruct (g_some _ _ _ G h (mkS d q [] (handles fo d q))) as (y & Y & A & B & D & _).
      { cbn. rewrite Nat.eqb_refl. reflexivity. }
      exists y. split; [destruct (handles fo d q); exact Y|]. split; [exact A|exact B].
    + left. eexists. split; reflexivity.
  - rewrite CX in S. destruct x as [wh ph ws is fo]. cbn in XW. subst wh. destruct (h' =? h) eqn:Q; [|discriminate].
    apply Nat.eqb_eq in Q. congruence.
  - rewrite CX in S. destruct x as [wh ph ws is fo]. injection S as <-. left. eexists. split; [reflexivity|exact XW].
  - rewrite CX in S. destruct x as [wh ph ws is fo]. cbn in XW. subst wh. discriminate.
  - destruct (wrk s); try discriminate. (eapply SAME; [|exact S]; reflexivity).
  - rewrite CX in S. discriminate.
  - rewrite CX in S. discriminate.
Qed.

(** A search that is stored when it is started. *)
Lemma step_begun s h d q s' : Inv s -> step s (StartFind h d q) = Some s' ->
  (exists y, crw s' = Some y /\ c_who y = Start h d q) \/ exists y, searches (cl s') h = Some y /\ s_dir y = d /\ s_q y = q.
Proof.
  intros I S. pose proof (inv_start _ _ _ _ _ I S) as I'. pose proof (i_dead _ I') as D'. unfold step in S. rewrite (i_dead _ I) in S.
  destruct (_ && _); [|discriminate].
  destruct (watched (cl s) d) as [[[w|] ch]|].
  - destruct (dirs_of (cl s) (w :: ch)); [|injection S as <-; discriminate].
    destruct (transfer_new _ _ _ _ _ _ _) eqn:T; [|injection S as <-; discriminate].
    injection S as <-. right. unfold transfer_new in T. destruct (searches (cl s) h); [discriminate|].
    destruct (store_links _ _ _) as [c1|] eqn:E; [|discriminate].
    assert (Z : exists y, searches c1 h = Some y /\ s_dir y = d /\ s_q y = q).
    { clear T. assert (S0 : exists y, searches (set_search (cl s) h (Some (mkS d q [] (handles (known (cl s)) d q)))) h = Some y /\ s_dir y = d /\ s_q y = q).
      { cbn. rewrite Nat.eqb_refl. eexists. split; [reflexivity|]. split; reflexivity. }
      revert E S0. generalize (set_search (cl s) h (Some (mkS d q [] (handles (known (cl s)) d q)))). clear D' I'. induction l as [|[w' d'] r IH]; intros c0 E (y & Y & A & B).
      - cbn in E. injection E as <-. exists y. auto.
      - cbn [store_links] in E. destruct (link _ _ _) as [c2|] eqn:L; [|discriminate]. apply (IH c2 E).
        unfold link in L. destruct (watches (store_watch c0 w' d') w'); [|discriminate]. rewrite store_watch_searches, Y in L.
        injection L as <-. cbn. rewrite Nat.eqb_refl. eexists. split; [reflexivity|]. cbn. auto. }
    destruct Z as (y & Y & A & B). exists y. injection T as <-. split; [destruct (handles (known (cl s)) d q); exact Y|auto].
  - injection S as <-. left. eexists. split; reflexivity.
  - injection S as <-. left. eexists. split; reflexivity.
Qed.

Lemma step_used s l s' h : Inv s -> step s l = Some s' -> (In h (used s') <-> In h (used s) \/ exists d q, l = StartFind h d q).
Proof.
  intros I S. unfold step in S. rewrite (i_dead _ I) in S.
  assert (SAME : (forall d q, l <> StartFind h d q) -> used s' = used s -> In h (used s') <-> In h (used s) \/ exists d q, l = StartFind h d q).
  { intros N ->. split; [auto|]. intros [Z|(d & q & ->)]; [exact Z|]. exfalso. apply (N d q eq_refl). }
  destruct l as [i|i q'|i q'|h' d' q'|h'| |h'| | |n| |h']; try (apply SAME; [discriminate|]).
  - injection S as <-. reflexivity.
  - destruct (_ && _); [injection S as <-; reflexivity|discriminate].
  - destruct (has _ _); [injection S as <-; reflexivity|discriminate].
  - destruct (_ && _); [|discriminate].
    assert (U : used s' = h' :: used s).
    { destruct (watched (cl s) d') as [[[w|] ch]|]; [|injection S as <-; reflexivity|injection S as <-; reflexivity].
      destruct (dirs_of (cl s) (w :: ch)); [|injection S as <-; reflexivity].
      destruct (transfer_new _ _ _ _ _ _ _); injection S as <-; reflexivity. }
    rewrite U. cbn [In]. split.
    + intros [->|Z]; [right; eexists; eexists; reflexivity|auto].
    + intros [Z|(d & q & E)]; [auto|]. injection E as -> _ _. auto.
  - destruct (may_enter s); [injection S as <-; reflexivity|discriminate].
  - destruct (crw s) as [[wh ph ws is fo]|]; [|discriminate]. injection S as <-. unfold crawl_step. cbn [c_phase c_who c_wds c_insts c_found].
    destruct ph as [| |[|i r]|[|p r]]; try reflexivity.
    + destruct (add_watch (ker s) (crawl_dir wh)). destruct (crawl_dir wh); reflexivity.
    + destruct (add_watch (ker s) (Some i)). reflexivity.
    + unfold finish_crawl. cbn [c_who c_wds c_found]. destruct wh as [h1 d1 q1|w0 i].
      * destruct (transfer_new _ _ _ _ _ _ _); reflexivity.
      * destruct ws as [|[w d1] [|]]; try reflexivity. destruct (watches (cl s) w0); [|reflexivity]. destruct (link_all _ _ _); reflexivity.
  - destruct (crw s) as [[[h0 d0 q0|w i] ph ws is fo]|]; try discriminate. destruct (h' =? h0); [|discriminate]. injection S as <-. reflexivity.
  - destruct (crw s) as [[y ph ws is fo]|]; try discriminate. injection S as <-. reflexivity.
  - destruct (crw s) as [[[h0 d0 q0|w i] ph ws is fo]|]; try discriminate. injection S as <-. reflexivity.
  - destruct (wrk s); try discriminate. injection S as <-. reflexivity.
  - destruct (crw s); [discriminate|]. unfold worker_step in S.
    destruct (wrk s) as [|b|[|[w e] r] im cre|[|h' keys] cre|[|[w e] r] im|[|h' keys]]; try discriminate; try (injection S as <-; reflexivity).
    + destruct (transfer_all _ _ _) as [[k c]|]; injection S as <-; reflexivity.
    + destruct (watches (cl s) w) as [y|]; [|injection S as <-; reflexivity].
      destruct e as [i|q'|q'|], (w_dir y) as [j|]; injection S as <-; reflexivity.
    + destruct (watches (cl s) w) as [y|]; [|injection S as <-; reflexivity].
      destruct e as [i|q'|q'|], (w_dir y) as [j|]; injection S as <-; reflexivity.
  - destruct (crw s); [discriminate|]. destruct (wrk s) as [| | |keys cre| |keys]; try discriminate;
      destruct (mem h' keys); try discriminate; injection S as <-; reflexivity.
Qed.

(** ** The log and the requests made so far *)

Record Tr (tr : list label) (s : st) : Prop := {
  t_used : forall h, In h (used s) <-> exists d q, In (StartFind h d q) tr;
  t_uniq : forall h d q d' q', In (StartFind h d q) tr -> In (StartFind h d' q') tr -> d = d' /\ q = q';
  t_obs : forall h, In h (obsolete (cl s)) -> In (StopFind h) tr;
  t_srch : forall h x, searches (cl s) h = Some x -> In (StartFind h (s_dir x) (s_q x)) tr;
  t_crw : forall x h d q, crw s = Some x -> c_who x = Start h d q -> In (StartFind h d q) tr /\ calls h (log (cl s)) = [];
  t_act : forall h d q, In (StartFind h d q) tr -> ~ In (StopFind h) tr -> ~ In (CrawlFail h) tr ->
            (exists x, searches (cl s) h = Some x /\ s_dir x = d /\ s_q x = q) \/
            (exists x, crw s = Some x /\ c_who x = Start h d q);
  t_log : forall h L, In L (calls h (log (cl s))) -> exists d q kn, In (StartFind h d q) tr /\ L = handles kn d q;
  t_told : forall h x, searches (cl s) h = Some x -> same (told h (log (cl s))) (s_prev x);
  t_diff : forall h, changing (calls h (log (cl s)));
}.

Lemma tr_init : Tr [] init.
Proof.
  constructor; cbn; try tauto; try discriminate.
  intros h. split; [tauto|]. intros (d & q & []).
Qed.

Lemma calls_cons h h' L l : calls h ((h', L) :: l) = if h' =? h then L :: calls h l else calls h l.
Proof. unfold calls. cbn. destruct (h' =? h); reflexivity. Qed.

Lemma not_used_fresh s l s' h d q : Inv s -> l = StartFind h d q -> step s l = Some s' -> ~ In h (used s) /\ crw s = None.
Proof.
  intros I -> S. unfold step in S. rewrite (i_dead _ I) in S. destruct (may_enter s) eqn:ME; [|discriminate].
  destruct (mem h (used s)) eqn:M; [discriminate|]. apply mem_false in M. split; [exact M|].
  unfold may_enter in ME. destruct (crw s); [discriminate|reflexivity].
Qed.

Lemma same_nil L : same L [] -> L = [].
Proof. destruct L as [|x r]; [reflexivity|]. intros S. exfalso. apply (proj1 (S x) (or_introl eq_refl)). Qed.

Lemma tr_step tr s l s' : Inv s -> Tr tr s -> step s l = Some s' -> Tr (l :: tr) s'.
Proof.
  intros I T S. pose proof (step_effect _ _ _ I S) as E.
  assert (FR : forall h d q, l = StartFind h d q -> forall d' q', ~ In (StartFind h d' q') tr).
  { intros h d q L d' q' Z. destruct (not_used_fresh _ _ _ _ _ _ I L S) as [A _]. apply A. apply (t_used _ _ T). exists d', q'. exact Z. }
  assert (FRC : forall h d q, l = StartFind h d q -> calls h (log (cl s)) = []).
  { intros h d q L. destruct (calls h (log (cl s))) as [|X r] eqn:C; [reflexivity|exfalso].
    destruct (t_log _ _ T h X) as (d' & q' & kn & A & _); [rewrite C; left; reflexivity|]. apply (FR h d q L d' q' A). }
  (* the search that appears, if any, had not been told anything *)
  assert (NEW : forall h d q, (l = StartFind h d q \/ exists x, crw s = Some x /\ c_who x = Start h d q) ->
                calls h (log (cl s)) = [] /\ In (StartFind h d q) (l :: tr)).
  { intros h d q [L|(x & X & XW)].
    - split; [apply (FRC _ _ _ L)|left; exact L].
    - destruct (t_crw _ _ T _ _ _ _ X XW) as [A B]. split; [exact B|right; exact A]. }
  constructor.
  - intros h. rewrite (step_used _ _ _ h I S), (t_used _ _ T). split.
    + intros [(d & q & Z)|(d & q & Z)]; exists d, q; [right|left]; exact Z.
    + intros (d & q & [Z|Z]); [right|left]; exists d, q; exact Z.
  - intros h d q d' q' [A|A] [B|B].
    + rewrite A in B. injection B as -> ->. auto.
    + exfalso. apply (FR h d q A d' q' B).
    + exfalso. apply (FR h d' q' B d q A).
    + apply (t_uniq _ _ T h); assumption.
  - intros h Z. destruct E as [EL EK EO EO'|EL EG EK EO EC|h0 x y X O D P Y DY QY EL EK EO|h0 d q y kn X Y DY QY P EL EK EO EC W].
    + destruct (EO h Z) as [A|A]; [right; apply (t_obs _ _ T _ A)|left; exact A].
    + rewrite EO in Z. destruct Z.
    + rewrite EO in Z. right. apply (t_obs _ _ T _ Z).
    + rewrite EO in Z. right. apply (t_obs _ _ T _ Z).
  - assert (K : forall h y, kept (cl s) (cl s') h -> searches (cl s') h = Some y -> In (StartFind h (s_dir y) (s_q y)) (l :: tr)).
    { intros h y KE Y. unfold kept in KE. rewrite Y in KE. destruct (searches (cl s) h) as [x|] eqn:X; [|contradiction].
      destruct KE as (-> & -> & _). right. apply (t_srch _ _ T h x X). }
    intros h z Z. destruct E as [EL EK EO EO'|EL EG EK EO EC|h0 x y X O D P Y DY QY EL EK EO|h0 d q y kn X Y DY QY P EL EK EO EC W].
    + apply K; auto.
    + apply K; [|exact Z]. apply EK. intros B. rewrite (EG h B) in Z. discriminate.
    + destruct (Nat.eq_dec h h0) as [->|N]; [|apply K; auto]. assert (z = y) by congruence. subst z. rewrite DY, QY. right. apply (t_srch _ _ T h0 x X).
    + destruct (Nat.eq_dec h h0) as [->|N]; [|apply K; auto]. assert (z = y) by congruence. subst z. rewrite DY, QY. apply (NEW _ _ _ W).
  - intros x h d q X XW.
    assert (B : In (StartFind h d q) (l :: tr) /\ calls h (log (cl s)) = [] /\ searches (cl s) h = None).
    { destruct (step_start _ _ _ _ _ _ _ I S X XW) as [(y & Y & YW)|L].
      - destruct (t_crw _ _ T _ _ _ _ Y YW) as [A B]. split; [right; exact A|]. split; [exact B|].
        pose proof (x_who _ _ _ _ _ _ (i_crw _ I _ Y)) as Z. rewrite YW in Z. apply Z.
      - split; [left; exact L|]. split; [apply (FRC _ _ _ L)|]. destruct (searches (cl s) h) as [z|] eqn:Z; [|reflexivity].
        exfalso. apply (proj1 (not_used_fresh _ _ _ _ _ _ I L S)). apply (i_used _ I _ _ Z). }
    destruct B as (B1 & B2 & B3). split; [exact B1|].
    destruct E as [EL EK EO EO'|EL EG EK EO EC|h0 x0 y X0 O D P Y DY QY EL EK EO|h0 d0 q0 y kn X0 Y DY QY P EL EK EO EC W].
    + rewrite EL. exact B2.
    + rewrite EL. exact B2.
    + rewrite EL, calls_cons. destruct (h0 =? h) eqn:Q; [apply Nat.eqb_eq in Q; congruence|exact B2].
    + congruence.
  - intros h d q A NS NC.
    assert (OB : ~ In h (obsolete (cl s))) by (intros Z; apply NS; right; apply (t_obs _ _ T _ Z)).
    destruct A as [L|A].
    + subst l. destruct (step_begun _ _ _ _ _ I S) as [Z|Z]; auto.
    + destruct (t_act _ _ T h d q A) as [(x & X & XD & XQ)|(x & X & XW)].
      * intros Z. apply NS. right. exact Z.
      * intros Z. apply NC. right. exact Z.
      * left. destruct E as [EL EK EO EO'|EL EG EK EO EC|h0 x0 y X0 O D P Y DY QY EL EK EO|h0 d0 q0 y kn X0 Y DY QY P EL EK EO EC W].
        -- specialize (EK h). unfold kept in EK. rewrite X in EK. destruct (searches (cl s') h) as [y|]; [|contradiction]. exists y. split; [reflexivity|].
           destruct EK as (-> & -> & _). auto.
        -- specialize (EK h OB). unfold kept in EK. rewrite X in EK. destruct (searches (cl s') h) as [y|]; [|contradiction]. exists y. split; [reflexivity|].
           destruct EK as (-> & -> & _). auto.
        -- destruct (Nat.eq_dec h h0) as [->|N].
           ++ exists y. split; [exact Y|]. assert (x0 = x) by congruence. subst x0. rewrite DY, QY. auto.
           ++ specialize (EK h N). unfold kept in EK. rewrite X in EK. destruct (searches (cl s') h) as [z|]; [|contradiction]. exists z. split; [reflexivity|].
              destruct EK as (-> & -> & _). auto.
        -- assert (N : h <> h0) by congruence.
           specialize (EK h N). unfold kept in EK. rewrite X in EK. destruct (searches (cl s') h) as [z|]; [|contradiction]. exists z. split; [reflexivity|].
           destruct EK as (-> & -> & _). auto.
      * destruct (step_started _ _ _ _ _ _ _ I S X XW) as [Z|Z]; auto. intros Z. apply NC. left. exact Z.
  - intros h L Z.
    assert (OLD : In L (calls h (log (cl s))) -> exists d q kn, In (StartFind h d q) (l :: tr) /\ L = handles kn d q).
    { intros A. destruct (t_log _ _ T h L A) as (d & q & kn & B & C). exists d, q, kn. split; [right; exact B|exact C]. }
    destruct E as [EL EK EO EO'|EL EG EK EO EC|h0 x0 y X0 O D P Y DY QY EL EK EO|h0 d0 q0 y kn X0 Y DY QY P EL EK EO EC W].
    + rewrite EL in Z. auto.
    + rewrite EL in Z. auto.
    + rewrite EL, calls_cons in Z. destruct (h0 =? h) eqn:Q; [|auto]. apply Nat.eqb_eq in Q. subst h0. destruct Z as [<-|Z]; [|auto].
      exists (s_dir x0), (s_q x0), (known (cl s)). split; [right; apply (t_srch _ _ T h x0 X0)|exact P].
    + assert (Z' : In L (calls h (log (cl s))) \/ h0 = h /\ L = s_prev y).
      { rewrite EL in Z. destruct (s_prev y) eqn:PY; [auto|]. rewrite calls_cons in Z. destruct (h0 =? h) eqn:Q; [|auto].
        apply Nat.eqb_eq in Q. destruct Z as [<-|Z]; auto. }
      destruct Z' as [Z'|(-> & ->)]; [auto|]. exists d0, q0, kn. split; [apply (NEW _ _ _ W)|exact P].
  - assert (K : forall h y, kept (cl s) (cl s') h -> calls h (log (cl s')) = calls h (log (cl s)) -> searches (cl s') h = Some y -> same (told h (log (cl s'))) (s_prev y)).
    { intros h y KE CE Y. unfold kept in KE. rewrite Y in KE. destruct (searches (cl s) h) as [x|] eqn:X; [|contradiction].
      destruct KE as (_ & _ & ->). unfold told. rewrite CE. apply (t_told _ _ T h x X). }
    intros h z Z. destruct E as [EL EK EO EO'|EL EG EK EO EC|h0 x y X O D P Y DY QY EL EK EO|h0 d q y kn X Y DY QY P EL EK EO EC W].
    + apply K; auto. rewrite EL. reflexivity.
    + apply K; [|rewrite EL; reflexivity|exact Z]. apply EK. intros B. rewrite (EG h B) in Z. discriminate.
    + destruct (Nat.eq_dec h h0) as [->|N].
      * assert (z = y) by congruence. subst z. unfold told. rewrite EL, calls_cons, Nat.eqb_refl. cbn. intros i. tauto.
      * apply K; auto. rewrite EL, calls_cons, (proj2 (Nat.eqb_neq h0 h)) by congruence. reflexivity.
    + destruct (Nat.eq_dec h h0) as [->|N].
      * assert (z = y) by congruence. subst z. unfold told. rewrite EL. destruct (s_prev y) eqn:PY.
        -- rewrite (proj1 (NEW _ _ _ W)). cbn. intros i. tauto.
        -- rewrite calls_cons, Nat.eqb_refl. cbn. intros j. tauto.
      * apply K; auto. rewrite EL. destruct (s_prev y); [reflexivity|]. rewrite calls_cons, (proj2 (Nat.eqb_neq h0 h)) by congruence. reflexivity.
  - intros h. pose proof (t_diff _ _ T h) as TD.
    destruct E as [EL EK EO EO'|EL EG EK EO EC|h0 x y X O D P Y DY QY EL EK EO|h0 d q y kn X Y DY QY P EL EK EO EC W].
    + rewrite EL. exact TD.
    + rewrite EL. exact TD.
    + rewrite EL, calls_cons. destruct (h0 =? h) eqn:Q; [|exact TD]. apply Nat.eqb_eq in Q. subst h0. cbn [changing]. split; [|exact TD].
      intros Z. assert (SS : same_set (s_prev x) (s_prev y) = true); [|congruence]. apply same_set_spec. intros i.
      rewrite <- (t_told _ _ T h x X i). unfold told. symmetry. apply Z.
    + rewrite EL. destruct (s_prev y) as [|i r] eqn:PY; [exact TD|]. rewrite calls_cons. destruct (h0 =? h) eqn:Q; [|exact TD].
      apply Nat.eqb_eq in Q. subst h0. rewrite (proj1 (NEW _ _ _ W)) in *. cbn. split; [|exact Logic.I]. intros Z. apply same_nil in Z. discriminate.
Qed.

(** After a search is stopped its handler is not called. *)
Definition stopped (h : handle) (s : st) : Prop :=
  In h (used s) /\ (searches (cl s) h = None \/ In h (obsolete (cl s))) /\ forall x d q, crw s = Some x -> c_who x <> Start h d q.

Lemma stopped_step tr s l s' h : Inv s -> Tr tr s -> step s l = Some s' -> stopped h s ->
  stopped h s' /\ calls h (log (cl s')) = calls h (log (cl s)).
Proof.
  intros I T S (U & A & C). pose proof (step_effect _ _ _ I S) as E.
  assert (NS : forall d q, l <> StartFind h d q).
  { intros d q L. apply (proj1 (not_used_fresh _ _ _ _ _ _ I L S)). exact U. }
  assert (NW : forall d q, ~ (l = StartFind h d q \/ exists x, crw s = Some x /\ c_who x = Start h d q)).
  { intros d q [L|(x & X & W)]; [apply (NS d q L)|apply (C x d q X W)]. }
  assert (C' : forall x d q, crw s' = Some x -> c_who x <> Start h d q).
  { intros x d q X W. apply (NW d q). destruct (step_start _ _ _ _ _ _ _ I S X W) as [(y & Y)|L]; [right; exists y; exact Y|left; exact L]. }
  assert (U' : In h (used s')) by (apply (step_used _ _ _ h I S); auto).
  assert (KN : forall c, kept (cl s) c h -> searches (cl s) h = None -> searches c h = None).
  { intros c K N. unfold kept in K. rewrite N in K. destruct (searches c h); [contradiction|reflexivity]. }
  destruct E as [EL EK EO EO'|EL EG EK EO EC|h0 x y X O D P Y DY QY EL EK EO|h0 d q y kn X Y DY QY P EL EK EO EC W].
  - split; [|rewrite EL; reflexivity]. split; [exact U'|]. split; [|exact C']. destruct A as [A|A]; [left; apply KN; auto|right; auto].
  - split; [|rewrite EL; reflexivity]. split; [exact U'|]. split; [|exact C']. left. destruct (in_dec Nat.eq_dec h (obsolete (cl s))) as [O|O]; [apply EG; exact O|].
    destruct A as [A|A]; [apply KN; auto|contradiction].
  - assert (N : h <> h0) by (intros ->; destruct A as [A|A]; [congruence|contradiction]).
    split; [|rewrite EL, calls_cons, (proj2 (Nat.eqb_neq h0 h)) by congruence; reflexivity].
    split; [exact U'|]. split; [|exact C']. rewrite EO. destruct A as [A|A]; [left; apply KN; auto|right; auto].
  - assert (N : h <> h0) by (intros ->; apply (NW d q W)).
    split.
    + split; [exact U'|]. split; [|exact C']. rewrite EO. destruct A as [A|A]; [left; apply KN; auto|right; auto].
    + rewrite EL. destruct (s_prev y); [reflexivity|]. rewrite calls_cons, (proj2 (Nat.eqb_neq h0 h)) by congruence. reflexivity.
Qed.
