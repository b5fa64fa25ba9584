From Verif Require Import Base SdModel SdProofs SdInv.

Local Arguments handles : simpl never.
Local Arguments merge : simpl never.
Local Arguments insert : simpl never.
Local Arguments remove : simpl never.
Local Arguments add_watch : simpl never.
Local Arguments pairs : simpl never.
Local Arguments transfer_all : simpl never.
Local Arguments transfer_new : simpl never.
Local Arguments mkdir : simpl never.
Local Arguments create : simpl never.
Local Arguments delete : simpl never.

(** Deletions and creations are kept apart. *)
Definition sorted (w : worker) : Prop :=
  match w with
  | WDel r _ cre => (forall x, In x r -> is_del x = true) /\ forall x, In x cre -> is_cre x = true
  | WCallD _ cre => forall x, In x cre -> is_cre x = true
  | WCre r _ => forall x, In x r -> is_cre x = true
  | _ => True
  end.

Record Inv (s : st) : Prop := {
  i_dead : dead s = false;
  i_wf : Wf (pend s) (ker s) (cl s) (crw s);
  i_used : forall h x, searches (cl s) h = Some x -> In h (used s);
  i_crw : forall x, crw s = Some x -> Wx (pend s) (ker s) (cl s) (used s) (imp s) x;
  i_found : forall x w i, crw s = Some x -> c_who x = Found w i -> exists r l, wrk s = WCre r l;
  i_sorted : sorted (wrk s);
}.

Lemma inv_init : Inv init.
Proof.
  constructor; cbn; try discriminate; auto.
  constructor; cbn; try discriminate; try tauto.
  constructor; cbn; discriminate.
Qed.

(** A step of the kernel. *)
Lemma inv_kernel s k new :
  Inv s -> kmore (ker s) k new -> (crw s = None \/ kwd k None = kwd (ker s) None) -> Inv (set_ker s k).
Proof.
  intros I M E. assert (PE : pend (set_ker s k) = pend s ++ new).
  { unfold pend. cbn. rewrite (km_queue _ _ _ M), app_assoc. reflexivity. }
  destruct I. constructor; cbn; auto.
  - rewrite PE. apply wf_kmore with (k := ker s); assumption.
  - intros x X. rewrite PE. apply wx_kmore with (k := ker s); auto. destruct E as [E|E]; [congruence|exact E].
Qed.

Definition start_links (h : handle) (ws : list (wd * dir)) (w : wd) (d : dir) (h' : handle) : Prop := h' = h /\ In (w, d) ws.

Lemma transfer_new_spec P k c F h d q ws found hs :
  Wf P k c F -> (forall w i, ~ fnd F w i) -> searches c h = None ->
  (forall w d', In (w, d') ws -> kwd k d' = Some w) ->
  (exists w, In (w, d) ws) ->
  (forall w i, In (w, None) ws -> In i (dirs k) -> (exists w', In (w', Some i) ws) \/ In (w, EMkdir i) P) ->
  (forall i q', In (i, q') found -> exists w, In (w, Some i) ws) ->
  exists c1, grown (set_search c h (Some (mkS d q [] hs))) (start_links h ws) c1 /\
    Wf P k (set_known c1 (merge found (known c1))) None /\
    transfer_new c h d q ws found hs =
      Some (match hs with [] => set_known c1 (merge found (known c1)) | _ => call (set_known c1 (merge found (known c1))) h hs end).
Proof.
  intros W NF SN WS (wm & WM) KI FO. set (c0 := set_search c h (Some (mkS d q [] hs))).
  assert (S0 : searches c0 h = Some (mkS d q [] hs)) by (cbn; rewrite Nat.eqb_refl; reflexivity).
  destruct (store_links_grown h ws c0 _ S0) as (c1 & E & G).
  { intros w d' x I X. apply (wf_inj _ _ _ _ W _ _ w); [apply (wf_kwd _ _ _ _ W w x X)|apply WS; exact I]. }
  { intros w d1 d2 A B. apply (wf_inj _ _ _ _ W _ _ w); apply WS; assumption. }
  exists c1. split; [exact G|]. split.
  - refine (wf_grown P k c F c0 _ c1 found W eq_refl eq_refl eq_refl _ _ G _ _ _ _).
    + intros h' s S. cbn. destruct (h =? h') eqn:Q; [apply Nat.eqb_eq in Q; congruence|exact S].
    + intros h' s S. cbn in S. destruct (h =? h') eqn:Q; [|auto]. apply Nat.eqb_eq in Q. subst h'. right.
      injection S as <-. cbn. split; [exact SN|]. split; [reflexivity|]. exists wm. split; [reflexivity|exact WM].
    + intros w d' h' (-> & I). split; [apply WS; exact I|]. eexists. exact S0.
    + intros w h' i (-> & I) DI. destruct (KI w i I DI) as [(w' & Z)|Z]; [left; exists w'; split; [reflexivity|exact Z]|auto].
    + intros w x h' i Z. exfalso. apply (NF w i Z).
    + intros i q' I. destruct (FO i q' I) as (w & Z). exists w, h. split; [reflexivity|exact Z].
  - unfold transfer_new. rewrite SN. fold c0. rewrite E. destruct hs; reflexivity.
Qed.

Lemma wf_call P k c F h l : Wf P k c F -> Wf P k (call c h l) F.
Proof.
  intros W. refine (wf_same P P k c (call c h l) F F W _ _ eq_refl eq_refl _ _ _ _); cbn; auto.
  intros h' s S. exists s. auto.
Qed.

Lemma wf_told P k c F h (hs l : list inst) : Wf P k c F -> Wf P k (match hs with [] => c | _ => call c h l end) F.
Proof. intros W. destruct hs; [exact W|apply wf_call; exact W]. Qed.

(** The watches of a running search of the same directory. *)
Lemma dirs_of_spec c ws : (forall w, In w ws -> exists x, watches c w = Some x) ->
  exists l, dirs_of c ws = Some l /\ forall w d, In (w, d) l <-> In w ws /\ exists x, watches c w = Some x /\ w_dir x = d.
Proof.
  induction ws as [|w r IH]; intros H.
  - exists []. split; [reflexivity|]. intros w d. cbn. tauto.
  - destruct (H w (or_introl eq_refl)) as (x & X). destruct IH as (l & L & LI); [intros w' I; apply H; right; exact I|].
    exists ((w, w_dir x) :: l). split; [cbn [dirs_of]; rewrite X, L; reflexivity|]. intros w' d. cbn [In]. rewrite LI. split.
    + intros [E|(I & Z)]; [injection E as <- <-; split; [auto|exists x; auto]|auto].
    + intros ([<-|I] & y & Y & D); [left; congruence|right]. split; [exact I|exists y; auto].
Qed.

Lemma cached_links P k c d w ch :
  Wf P k c None -> watched c d = Some (Some w, ch) ->
  exists ws, dirs_of c (w :: ch) = Some ws /\
    (forall w' d', In (w', d') ws -> kwd k d' = Some w' /\ exists x, watches c w' = Some x /\ w_dir x = d') /\
    In (w, d) ws /\
    (forall w' i, In (w', None) ws -> In i (dirs k) -> (exists w'', In (w'', Some i) ws) \/ In (w', EMkdir i) P).
Proof.
  intros W T. pose proof (wf_mok _ _ _ _ W) as M. destruct (m_main _ M _ _ _ T) as (x & X & D).
  assert (CH : forall w', In w' ch -> d = None /\ exists y i, watches c w' = Some y /\ w_dir y = Some i).
  { intros w' I. destruct d as [i|].
    - rewrite (m_leaf _ M _ _ _ T) in I. destruct I.
    - split; [reflexivity|]. apply (m_kids _ M _ _ w' T). exact I. }
  destruct (dirs_of_spec c (w :: ch)) as (ws & E & WI).
  { intros w' [<-|I]; [exists x; exact X|]. destruct (CH w' I) as (_ & y & i & Y & _). exists y. exact Y. }
  exists ws. split; [exact E|]. split.
  { intros w' d' I. apply WI in I. destruct I as (_ & y & Y & Z). split; [|exists y; auto].
    rewrite <- Z. apply (wf_kwd _ _ _ _ W w' y Y). }
  split; [apply WI; split; [left; reflexivity|exists x; auto]|].
  intros w' i I DI. apply WI in I. destruct I as ([<-|I] & y & Y & Z).
  - assert (y = x) by congruence. subst y. rewrite D in Z. rewrite Z in D, T.
    destruct (wf_some _ _ _ _ W w x X) as (h0 & H0).
    destruct (wf_kids _ _ _ _ W w x h0 i X D H0 DI) as [(w2 & x2 & X2 & D2 & _)|[A|(y & A & _)]]; [|auto|discriminate].
    left. exists w2. apply WI. split; [|exists x2; auto]. right. apply (m_kids _ M _ _ w2 T). exists x2, i. auto.
  - exfalso. destruct (CH w' I) as (_ & y2 & j & Y2 & Z2). congruence.
Qed.

(** * Every step keeps the structure, whatever happens *)

Lemma no_fnd_start (x : crawl) h d q : c_who x = Start h d q -> forall w i, ~ fnd (Some x) w i.
Proof. intros E w i (y & Y & Z). injection Y as <-. congruence. Qed.

Lemma no_fnd_none w i : ~ fnd None w i.
Proof. intros (y & Y & _). discriminate. Qed.

Lemma inv_start s h d q s' : Inv s -> step s (StartFind h d q) = Some s' -> Inv s'.
Proof.
  intros I S. unfold step in S. rewrite (i_dead _ I) in S.
  destruct (may_enter s) eqn:ME; [|discriminate]. destruct (mem h (used s)) eqn:MU; [discriminate|]. cbn [andb negb] in S.
  assert (CN : crw s = None) by (unfold may_enter in ME; destruct (crw s); [discriminate|reflexivity]).
  apply mem_false in MU.
  assert (SN : searches (cl s) h = None).
  { destruct (searches (cl s) h) eqn:Z; [|reflexivity]. exfalso. apply MU. apply (i_used _ I _ _ Z). }
  pose proof (i_wf _ I) as W. rewrite CN in W.
  assert (CR : forall s1, Some (set_crw (mkSt (ker s) (cl s) (wrk s) (crw s) (h :: used s) false) (Some (mkCr (Start h d q) PMain [] [] []))) = Some s1 -> Inv s1).
  { intros s1 E. injection E as <-. constructor; cbn.
    - reflexivity.
    - refine (wf_same _ _ _ _ _ None _ W _ _ eq_refl eq_refl _ _ _ _); auto.
      + intros h' x X. exists x. auto.
      + intros w i Z. exfalso. apply (no_fnd_none w i Z).
    - intros h' x X. right. apply (i_used _ I _ _ X).
    - intros x X. injection X as <-. constructor; cbn; try tauto; try congruence.
    - intros x w i X. injection X as <-. discriminate.
    - apply (i_sorted _ I). }
  destruct (watched (cl s) d) as [[[w|] ch]|] eqn:T; [|apply CR; exact S|apply CR; exact S]. clear CR.
  destruct (cached_links _ _ _ _ _ _ W T) as (ws & E & A & B & C). rewrite E in S.
  destruct (transfer_new_spec _ _ _ _ h d q ws [] (handles (known (cl s)) d q) W) as (c1 & G & W' & TN).
  { apply no_fnd_none. }
  { exact SN. }
  { intros w' d' Z. apply (A w' d' Z). }
  { exists w. exact B. }
  { exact C. }
  { intros i q' []. }
  rewrite TN in S. injection S as <-. constructor; cbn.
  - reflexivity.
  - unfold pend. cbn. rewrite CN. apply wf_told. exact W'.
  - intros h' x X. assert (X' : searches c1 h' = Some x) by (destruct (handles (known (cl s)) d q); exact X).
    destruct (Nat.eq_dec h' h) as [->|N]; [left; reflexivity|]. right.
    destruct (searches (cl s) h') as [y|] eqn:Y; [apply (i_used _ I _ _ Y)|].
    rewrite (g_none _ _ _ G h') in X'; [discriminate|]. cbn. rewrite (proj2 (Nat.eqb_neq h h')) by congruence. exact Y.
  - intros x X. congruence.
  - intros x w' i X. congruence.
  - apply (i_sorted _ I).
Qed.

Lemma inv_stop s h s' : Inv s -> step s (StopFind h) = Some s' -> Inv s'.
Proof.
  intros I S. unfold step in S. rewrite (i_dead _ I) in S. destruct (may_enter s) eqn:ME; [|discriminate].
  assert (CN : crw s = None) by (unfold may_enter in ME; destruct (crw s); [discriminate|reflexivity]).
  injection S as <-. constructor; cbn.
  - apply (i_dead _ I).
  - refine (wf_same _ _ _ _ (set_obsolete (cl s) (add h (obsolete (cl s)))) _ _ (i_wf _ I) _ _ eq_refl eq_refl _ _ _ _); auto. intros h' x X. exists x. auto.
  - apply (i_used _ I).
  - intros x X. congruence.
  - intros x w' i X. congruence.
  - apply (i_sorted _ I).
Qed.

Lemma inv_fail s h s' : Inv s -> step s (CrawlFail h) = Some s' -> Inv s'.
Proof.
  intros I S. unfold step in S. rewrite (i_dead _ I) in S. destruct (crw s) as [[[h0 d q|w i] ph ws is fo]|] eqn:CN; try discriminate.
  destruct (h =? h0); [|discriminate]. injection S as <-. constructor; cbn.
  - apply (i_dead _ I).
  - refine (wf_same _ _ _ _ _ _ _ (i_wf _ I) _ _ eq_refl eq_refl _ _ _ _); auto.
    + intros h' x X. exists x. auto.
    + intros w i Z. rewrite CN in Z. exfalso. destruct Z as (y & Y & Z). injection Y as <-. discriminate.
  - apply (i_used _ I).
  - discriminate.
  - discriminate.
  - apply (i_sorted _ I).
Qed.

Lemma inv_again s s' : Inv s -> step s CrawlAgain = Some s' -> Inv s'.
Proof.
  intros I S. unfold step in S. rewrite (i_dead _ I) in S. destruct (crw s) as [[y ph ws is fo]|] eqn:CN; [|discriminate].
  injection S as <-. pose proof (i_crw _ I _ CN) as X. constructor; cbn.
  - apply (i_dead _ I).
  - refine (wf_same _ _ _ _ _ _ _ (i_wf _ I) _ _ eq_refl eq_refl _ _ _ _); auto.
    + intros h' x Y. exists x. auto.
    + intros w i Z. rewrite CN in Z. destruct Z as (y' & Y & Z). injection Y as <-. eexists. split; [reflexivity|exact Z].
  - apply (i_used _ I).
  - intros x Y. injection Y as <-. pose proof (x_who _ _ _ _ _ _ X) as XW. cbn in XW. constructor; cbn; try tauto; try congruence. 
  - intros x w i Y Z. injection Y as <-. apply (i_found _ I _ w i CN). exact Z.
  - apply (i_sorted _ I).
Qed.

Lemma inv_fs s l s' : Inv s -> step s l = Some s' -> match l with FsMkdir _ | FsCreate _ _ | FsDelete _ _ => True | _ => False end -> Inv s'.
Proof.
  intros I S L. unfold step in S. rewrite (i_dead _ I) in S. pose proof (i_wf _ I) as W. destruct l as [i|i q|i q| | | | | | | | |]; try contradiction.
  - injection S as <-. destruct (kmore_mkdir _ _ _ _ i W) as (new & M & _). apply (inv_kernel s _ new I M). right.
    destruct (mkdir_frame (ker s) i) as [_ ->]. reflexivity.
  - destruct (mem i (dirs (ker s))) eqn:D; [|discriminate]. destruct (has (i, q) (files (ker s))); [discriminate|]. cbn in S.
    injection S as <-. apply mem_In in D. apply (inv_kernel s _ _ I (kmore_create _ _ _ _ i q W D)). right. reflexivity.
  - destruct (has (i, q) (files (ker s))); [|discriminate]. injection S as <-.
    apply (inv_kernel s _ _ I (kmore_delete _ _ _ _ i q W)). right. reflexivity.
Qed.

Lemma inv_read s n s' : Inv s -> step s (Read n) = Some s' -> Inv s'.
Proof.
  intros I S. unfold step in S. rewrite (i_dead _ I) in S. destruct (wrk s) eqn:WK; try discriminate. injection S as <-.
  assert (PE : pend (mkSt (mkK (dirs (ker s)) (files (ker s)) (kwd (ker s)) (nxt (ker s)) (skipn n (queue (ker s))))
                            (cl s) (WGot (firstn n (queue (ker s)))) (crw s) (used s) false) = pend s).
  { unfold pend. cbn. rewrite WK. cbn. apply firstn_skipn. }
  constructor; cbn [ker cl wrk crw used dead].
  - reflexivity.
  - rewrite PE. destruct (i_wf _ I). constructor; assumption.
  - apply (i_used _ I).
  - intros x X. rewrite PE. pose proof (i_crw _ I x X) as Z.
    assert (EI : imp s = []) by (unfold imp; rewrite WK; reflexivity).
    unfold imp at 1. cbn. rewrite EI in Z. destruct Z. constructor; assumption.
  - intros x w i X E. destruct (i_found _ I x w i X E) as (r & l & Z). congruence.
  - exact Logic.I.
Qed.

(** A watch added by the crawl. *)
Lemma wf_recrawl P k c x x' : c_who x' = c_who x -> Wf P k c (Some x) -> Wf P k c (Some x').
Proof.
  intros E W. refine (wf_same P P k c c _ _ W _ _ eq_refl eq_refl _ _ _ _); auto.
  - intros h s S. exists s. auto.
  - intros w i (y & Y & Z). injection Y as <-. exists x'. split; [reflexivity|congruence].
Qed.

(** The watch of a new instance directory, linked to all searches of the service directory. *)
Lemma found_grown P k c F w0 x0 i w :
  Wf P k c F -> watches c w0 = Some x0 -> kwd k (Some i) = Some w ->
  exists c', link_all (store_watch c w (Some i)) w (w_hs x0) = Some c' /\
             grown c (fun w' d h => w' = w /\ d = Some i /\ In h (w_hs x0)) c'.
Proof.
  intros W X0 KW. set (c0 := store_watch c w (Some i)).
  assert (DW : forall y, watches c w = Some y -> w_dir y = Some i).
  { intros y Y. apply (wf_inj _ _ _ _ W _ _ w); [apply (wf_kwd _ _ _ _ W w y Y)|exact KW]. }
  destruct (w_hs x0) as [|h0 hr] eqn:HS.
  - destruct (wf_some _ _ _ _ W w0 x0 X0) as (h & Z). rewrite HS in Z. destruct Z.
  - destruct (wf_wh _ _ _ _ W w0 x0 h0 X0) as (s0 & S0 & _); [rewrite HS; left; reflexivity|].
    destruct (store_link_grown c w (Some i) h0 s0 S0 DW) as (c1 & E1 & G1). fold c0 in E1.
    destruct (g_there _ _ _ G1 w (Some i) h0) as (y & Y); [auto|].
    assert (YD : w_dir y = Some i).
    { destruct (watches c w) as [z|] eqn:Z.
      - destruct (g_kept _ _ _ G1 w z Z) as (z' & Z1 & Z2 & _). assert (z' = y) by congruence. subst z'. rewrite Z2. apply DW. reflexivity.
      - destruct (g_new _ _ _ G1 w y Z Y) as (d & D1 & (h & _ & -> & _) & _). exact D1. }
    destruct (link_all_grown w hr c1 y Y) as (c2 & E2 & G2).
    { intros h Hh. destruct (wf_wh _ _ _ _ W w0 x0 h X0) as (sh & SH & _); [rewrite HS; right; exact Hh|].
      destruct (g_some _ _ _ G1 h sh SH) as (s2 & S2 & _). exists s2. exact S2. }
    exists c2. split; [cbn [link_all]; rewrite E1; exact E2|].
    refine (grown_trans _ _ _ _ _ _ G1 G2 _ _).
    + intros w' d h. cbn [In]. rewrite YD. split.
      * intros (-> & -> & [<-|Z]); auto.
      * intros [(-> & -> & ->)|(-> & -> & Z)]; auto.
    + intros w' d1 d2 h1 h2 (_ & -> & _) (_ & -> & _). reflexivity.
Qed.

Lemma inv_crawl s s' : Inv s -> step s CrawlStep = Some s' -> Inv s'.
Proof.
  intros I S. unfold step in S. rewrite (i_dead _ I) in S. destruct (crw s) as [x|] eqn:CX; [|discriminate].
  injection S as <-. pose proof (i_wf _ I) as W. rewrite CX in W. pose proof (i_crw _ I x CX) as X.
  destruct x as [wh ph ws is fo]. unfold crawl_step. cbn [c_phase c_who c_wds c_insts c_found].
  pose proof (x_who _ _ _ _ _ _ X) as XW. cbn [c_who] in XW.
  destruct ph as [| |[|i r]|[|p r]].
  - (* the first watch *)
    destruct (add_watch (ker s) (crawl_dir wh)) as [k w] eqn:AW.
    destruct (add_watch_spec _ _ _ _ _ _ _ W AW) as ((new & M & MN) & K1 & K2 & K3 & K4 & K5).
    assert (PE : pend (set_ker s k) = pend s ++ new).
    { unfold pend. cbn. rewrite (km_queue _ _ _ M), app_assoc. reflexivity. }
    pose proof (wf_kmore _ _ _ _ _ _ W M) as W'. rewrite <- PE in W'.
    assert (XW' : match wh with
          | Start h _ _ => In h (used s) /\ searches (cl s) h = None
          | Found w0 i => In i (dirs k) /\ exists x0, watches (cl s) w0 = Some x0 /\ w_dir x0 = None /\ forall h, In h (w_hs x0) -> In h (imp s)
          end).
    { destruct wh; [exact XW|]. destruct XW as [A B]. split; [apply (km_dirs _ _ _ M); exact A|exact B]. }
    destruct (crawl_dir wh) as [i|] eqn:CD.
    + constructor; cbn.
      * apply (i_dead _ I).
      * refine (wf_recrawl _ _ _ _ _ _ W'). reflexivity.
      * apply (i_used _ I).
      * intros x E. injection E as <-. constructor; cbn; try congruence.
        -- exact XW'.
        -- intros w' d [E|[]]. injection E as <- <-. exact K1.
        -- intros w' [E|[]]. discriminate.
        -- intros w' j [E|[]]. injection E as _ <-. auto.
        -- intros _. exists w. rewrite CD. auto.
        -- intros j _ E. assert (j = i) by congruence. subst j. split; [exists w; reflexivity|]. split; [reflexivity|eexists; reflexivity].
        -- intros j [<-|[]]. apply K3. reflexivity.
        -- intros j q [].
        -- intros t j q E Z. injection E as <-. apply In_pairs in Z. exact Z.
      * intros x w' j E F. injection E as <-. apply (i_found _ I _ w' j CX F).
      * apply (i_sorted _ I).
    + constructor; cbn.
      * apply (i_dead _ I).
      * refine (wf_recrawl _ _ _ _ _ _ W'). reflexivity.
      * apply (i_used _ I).
      * intros x E. injection E as <-. constructor; cbn; try congruence; try tauto.
        -- intros w' d [E|[]]. injection E as <- <-. exact K1.
        -- intros w' j [E|[]]. discriminate.
        -- intros _. exists w. rewrite CD. auto.
      * intros x w' j E F. injection E as <-. apply (i_found _ I _ w' j CX F).
      * apply (i_sorted _ I).
  - (* the listing *)
    assert (CD : crawl_dir wh = None).
    { destruct (crawl_dir wh) as [i|] eqn:CD; [|reflexivity].
      destruct (x_one _ _ _ _ _ _ X i) as (_ & _ & t & T); [discriminate|exact CD|discriminate]. }
    constructor; cbn.
    + apply (i_dead _ I).
    + refine (wf_recrawl _ _ _ _ _ _ W). reflexivity.
    + apply (i_used _ I).
    + intros x E. injection E as <-. constructor; cbn; try congruence; try tauto.
      * apply (x_wds _ _ _ _ _ _ X).
      * intros w i Z. apply (wf_dirs _ _ _ _ W i w). apply (x_wds _ _ _ _ _ _ X w (Some i) Z).
      * intros _. apply (x_main _ _ _ _ _ _ X). discriminate.
      * intros _. split; [intros i Z; auto|]. split; [auto|]. intros i Z. auto.
    + intros x w' j E F. injection E as <-. apply (i_found _ I _ w' j CX F).
    + apply (i_sorted _ I).
  - (* all instance directories are watched *)
    assert (CD : crawl_dir wh = None).
    { destruct (crawl_dir wh) as [j|] eqn:CD; [|reflexivity].
      destruct (x_one _ _ _ _ _ _ X j) as (_ & _ & t & T); [discriminate|exact CD|discriminate]. }
    constructor; cbn.
    + apply (i_dead _ I).
    + refine (wf_recrawl _ _ _ _ _ _ W). reflexivity.
    + apply (i_used _ I).
    + intros x E. injection E as <-. constructor; cbn; try congruence; try tauto.
      * apply (x_wds _ _ _ _ _ _ X).
      * apply (x_inst _ _ _ _ _ _ X).
      * intros _. apply (x_main _ _ _ _ _ _ X). discriminate.
      * apply (x_dirs _ _ _ _ _ _ X).
      * intros t j q E Z. injection E as <-. apply In_pairs in Z. exact Z.
      * intros _. destruct (x_list _ _ _ _ _ _ X CD) as (A & _ & B). split; [exact A|]. intros i Z. destruct (B i Z) as [[]|Q]. exact Q.
    + intros x w' j E F. injection E as <-. apply (i_found _ I _ w' j CX F).
    + apply (i_sorted _ I).
  - (* one more instance directory *)
    assert (CD : crawl_dir wh = None).
    { destruct (crawl_dir wh) as [j|] eqn:CD; [|reflexivity].
      destruct (x_one _ _ _ _ _ _ X j) as (_ & _ & t & T); [discriminate|exact CD|discriminate]. }
    destruct (add_watch (ker s) (Some i)) as [k w] eqn:AW.
    destruct (add_watch_spec _ _ _ _ _ _ _ W AW) as ((new & M & MN) & K1 & K2 & K3 & K4 & K5).
    assert (PE : pend (set_ker s k) = pend s ++ new).
    { unfold pend. cbn. rewrite (km_queue _ _ _ M), app_assoc. reflexivity. }
    pose proof (wf_kmore _ _ _ _ _ _ W M) as W'. rewrite <- PE in W'.
    assert (X' : Wx (pend (set_ker s k)) k (cl s) (used s) (imp s) (mkCr wh (PAdd (i :: r)) ws is fo)).
    { rewrite PE. apply wx_kmore with (k := ker s); [exact X|exact M|]. apply K4. discriminate. }
    destruct (x_list _ _ _ _ _ _ X' CD) as (A & B & C).
    constructor; cbn.
    + apply (i_dead _ I).
    + refine (wf_recrawl _ _ _ _ _ _ W'). reflexivity.
    + apply (i_used _ I).
    + intros x E. injection E as <-. constructor; cbn; try congruence; try tauto.
      * apply (x_who _ _ _ _ _ _ X').
      * intros w' d [E|Z]; [injection E as <- <-; exact K1|apply (x_wds _ _ _ _ _ _ X' w' d Z)].
      * intros w' j [E|Z]; [injection E as _ <-; apply B; left; reflexivity|apply (x_inst _ _ _ _ _ _ X' w' j Z)].
      * intros _. destruct (x_main _ _ _ _ _ _ X') as (w' & Z); [discriminate|]. exists w'. right. exact Z.
      * apply (x_dirs _ _ _ _ _ _ X').
      * intros _. split; [exact A|]. split; [intros j Z; apply B; right; exact Z|]. intros j Z. destruct (C j Z) as [[<-|Q]|(w' & Q)].
        -- right. exists w. left. reflexivity.
        -- left. exact Q.
        -- right. exists w'. right. exact Q.
    + intros x w' j E F. injection E as <-. apply (i_found _ I _ w' j CX F).
    + apply (i_sorted _ I).
  - (* finished *)
    unfold finish_crawl. cbn [c_who c_wds c_found].
    pose proof (x_every _ _ _ _ _ _ [] X eq_refl) as XE. cbn [c_insts c_wds] in XE.
    destruct wh as [h d q|w0 i].
    + destruct XW as [HU SN].
      destruct (transfer_new_spec _ _ _ _ h d q ws fo (handles fo d q) W) as (c1 & G & W' & TN).
      { apply (no_fnd_start _ h d q). reflexivity. }
      { exact SN. }
      { apply (x_wds _ _ _ _ _ _ X). }
      { apply (x_main _ _ _ _ _ _ X). discriminate. }
      { intros w i Z DI. pose proof (x_none _ _ _ _ _ _ X w Z) as CD.
        destruct (x_list _ _ _ _ _ _ X CD) as (A & B). destruct (A i DI) as [Q|Q]; [left; apply B; exact Q|].
        right. apply Q. apply (x_wds _ _ _ _ _ _ X w None Z). }
      { intros i q' Z. destruct (XE i) as (w & A & _); [apply (x_found _ _ _ _ _ _ X i q' Z)|exists w; exact A]. }
      rewrite TN. constructor; cbn.
      * apply (i_dead _ I).
      * unfold pend. cbn. apply wf_told. exact W'.
      * intros h' x Y. assert (Y' : searches c1 h' = Some x) by (destruct (handles fo d q); exact Y).
        destruct (Nat.eq_dec h' h) as [->|N]; [exact HU|].
        destruct (searches (cl s) h') as [y|] eqn:Z; [apply (i_used _ I _ _ Z)|].
        rewrite (g_none _ _ _ G h') in Y'; [discriminate|]. cbn. rewrite (proj2 (Nat.eqb_neq h h')) by congruence. exact Z.
      * discriminate.
      * discriminate.
      * apply (i_sorted _ I).
    + destruct XW as (DI & x0 & X0 & D0 & H0). destruct (x_one _ _ _ _ _ _ X i) as ((w & WE) & IE & _); [discriminate|reflexivity|].
      cbn [c_wds] in WE. cbn [c_insts] in IE. subst ws is. rewrite X0.
      pose proof (x_wds _ _ _ _ _ _ X w (Some i) (or_introl eq_refl)) as KW.
      destruct (found_grown _ _ _ _ w0 x0 i w W X0 KW) as (c' & E & G).
      rewrite E. constructor; cbn.
      * apply (i_dead _ I).
      * unfold pend. cbn. refine (wf_grown _ _ (cl s) _ (cl s) _ c' fo W eq_refl eq_refl eq_refl _ _ G _ _ _ _).
        -- auto.
        -- auto.
        -- intros w' d h (-> & -> & Z). split; [exact KW|]. destruct (wf_wh _ _ _ _ W w0 x0 h X0 Z) as (sh & SH & _). exists sh. exact SH.
        -- intros w' h j (_ & Z & _). discriminate.
        -- intros w' y h j (z & Z1 & Z2) Y D Z. injection Z1 as <-. cbn in Z2. injection Z2 as <- <-.
           exists w. split; [reflexivity|]. split; [reflexivity|]. congruence.
        -- intros j q Z. destruct (wf_some _ _ _ _ W w0 x0 X0) as (h & HH). exists w, h. split; [reflexivity|]. split; [|exact HH].
           pose proof (x_found _ _ _ _ _ _ X j q Z) as Q. cbn in Q. destruct Q as [->|[]]. reflexivity.
      * intros h x Y. destruct (searches (cl s) h) as [y|] eqn:Z; [apply (i_used _ I _ _ Z)|].
        rewrite (g_none _ _ _ G h Z) in Y. discriminate.
      * discriminate.
      * discriminate.
      * apply (i_sorted _ I).
  - (* one check *)
    constructor; cbn.
    + apply (i_dead _ I).
    + refine (wf_recrawl _ _ _ _ _ _ W). reflexivity.
    + apply (i_used _ I).
    + intros x E. injection E as <-.
      assert (XF : forall i q, In (i, q) (if has p (files (ker s)) then insert p fo else fo) -> In i is).
      { intros i q Z. destruct (has p (files (ker s))); [apply In_insert in Z; destruct Z as [<-|Z]|].
        - apply (x_todo _ _ _ _ _ _ X ((i, q) :: r) i q eq_refl). left. reflexivity.
        - apply (x_found _ _ _ _ _ _ X i q Z).
        - apply (x_found _ _ _ _ _ _ X i q Z). }
      constructor; cbn; try (intros; discriminate).
      * exact XW.
      * apply (x_wds _ _ _ _ _ _ X).
      * apply (x_none _ _ _ _ _ _ X).
      * apply (x_inst _ _ _ _ _ _ X).
      * intros _. apply (x_main _ _ _ _ _ _ X). discriminate.
      * intros i _ CD. destruct (x_one _ _ _ _ _ _ X i) as (A & B & _); [discriminate|exact CD|].
        split; [exact A|]. split; [exact B|]. eexists. reflexivity.
      * apply (x_dirs _ _ _ _ _ _ X).
      * exact XF.
      * intros t i q E Z. injection E as <-. apply (x_todo _ _ _ _ _ _ X (p :: r) i q eq_refl). right. exact Z.
      * apply (x_list _ _ _ _ _ _ X).
    + intros x w' j E F. injection E as <-. apply (i_found _ I _ w' j CX F).
    + apply (i_sorted _ I).
Qed.

(** The worker's steps. *)
Lemma inv_worker s s' : Inv s -> step s WStep = Some s' -> Inv s'.
Proof.
  intros I S. unfold step in S. rewrite (i_dead _ I) in S. destruct (crw s) as [cx|] eqn:CN; [discriminate|].
  pose proof (i_wf _ I) as W. rewrite CN in W. unfold worker_step in S. pose proof (i_sorted _ I) as SO.
  assert (SAME : forall w', batch_of w' ++ queue (ker s) = pend s -> sorted w' -> Inv (set_wrk s w')).
  { intros w' E SW. constructor; cbn.
    - apply (i_dead _ I).
    - rewrite CN. unfold pend. cbn. rewrite E. exact W.
    - apply (i_used _ I).
    - intros x X. congruence.
    - intros x w i X. congruence.
    - exact SW. }
  assert (DROP : forall w' w e c', pend s = (w, e) :: batch_of w' ++ queue (ker s) -> sorted w' ->
            (forall x i, watches (cl s) w = Some x -> w_dir x = None -> e <> EMkdir i) ->
            searches c' = searches (cl s) -> watches c' = watches (cl s) -> watched c' = watched (cl s) ->
            (forall i q, In (i, q) (known c') -> In (i, q) (known (cl s)) \/ exists w x, watches (cl s) w = Some x /\ w_dir x = Some i) ->
            Inv (set_wrk (set_cl s c') w')).
  { intros w' w e c' E SW NM ES EW ED EK. constructor; cbn.
    - apply (i_dead _ I).
    - rewrite CN. unfold pend. cbn. rewrite E in W.
      refine (wf_same _ _ _ _ c' _ _ W _ _ EW ED EK _ _ _).
      + intros h Z. rewrite ES. exact Z.
      + intros h x X. exists x. rewrite ES. auto.
      + intros x X. left. right. exact X.
      + intros w1 x i X D [Z|Z]; [|auto]. injection Z as -> ->. exfalso. apply (NM x i X D). reflexivity.
      + auto.
    - intros h x X. rewrite ES in X. apply (i_used _ I h x X).
    - intros x X. congruence.
    - intros x w1 i X. congruence.
    - exact SW. }
  destruct (wrk s) as [|b|[|[w e] r] im cre|[|h keys] cre|[|[w e] r] im|[|h keys]] eqn:WK; try discriminate.
  - (* the searches that were stopped go *)
    destruct (transfer_all_spec (obsolete (cl s)) _ _ _ W) as (k & c & ign & T & SH & W'). rewrite T in S. injection S as <-.
    assert (PE : pend s = b ++ queue (ker s)) by (unfold pend; rewrite WK; reflexivity).
    constructor; cbn.
    + apply (i_dead _ I).
    + rewrite CN. unfold pend. cbn.
      refine (wf_same _ _ k c (set_obsolete c []) _ _ W' _ _ eq_refl eq_refl _ _ _ _); auto.
      * intros h x X. exists x. auto.
      * intros x X. left. rewrite (sh_queue _ _ _ _ _ _ SH), app_assoc in X. rewrite PE.
        apply in_app_or in X. apply in_or_app. destruct X as [X|X]; [|auto]. left. apply in_app_or in X. apply in_or_app.
        destruct X as [X|X]; [|auto]. left. apply (In_split_batch b x (any_event x)). exact X.
      * intros w x i X D Z. left. rewrite (sh_queue _ _ _ _ _ _ SH), app_assoc. rewrite PE in Z.
        apply in_app_or in Z. apply in_or_app. destruct Z as [Z|Z]; [|auto]. left. apply in_app_or in Z. apply in_or_app.
        destruct Z as [Z|Z]; [|auto]. left. apply (In_split_batch b _ (any_event _)). exact Z.
    + intros h x X. destruct (in_dec Nat.eq_dec h (obsolete (cl s))) as [Z|Z].
      * rewrite (sh_gone _ _ _ _ _ _ SH h Z) in X. discriminate.
      * rewrite (sh_stay _ _ _ _ _ _ SH h Z) in X. apply (i_used _ I h x X).
    + intros x X. congruence.
    + intros x w i X. congruence.
    + split; intros x X; apply filter_In in X; apply X.
  - injection S as <-. apply SAME; [unfold pend; rewrite WK; reflexivity|]. destruct SO as [_ SO]. exact SO.
  - assert (PE : pend s = (w, e) :: (r ++ cre) ++ queue (ker s)) by (unfold pend; rewrite WK; reflexivity).
    destruct SO as [SO1 SO2]. pose proof (SO1 _ (or_introl eq_refl)) as SE.
    assert (SO' : forall l, sorted (WDel r l cre)) by (intros l; split; [intros x X; apply SO1; right; exact X|exact SO2]).
    assert (NM : forall i, e <> EMkdir i) by (intros i ->; discriminate).
    assert (ID : forall l, Inv (set_wrk s (WDel r l cre))).
    { intros l. change (set_wrk s (WDel r l cre)) with (set_wrk (set_cl s (cl s)) (WDel r l cre)).
      apply (DROP _ w e (cl s)); auto. }
    destruct (watches (cl s) w) as [x|] eqn:X; [|injection S as <-; apply ID].
    destruct e as [i|q|q|]; [exfalso; apply (NM i); reflexivity|injection S as <-; apply ID| |injection S as <-; apply ID].
    destruct (w_dir x) as [i|] eqn:D.
    + injection S as <-. apply (DROP _ w (EDelete q)); auto; try (intros; discriminate). cbn. intros j q' K. apply In_remove in K. tauto.
    + exfalso. apply (wf_flag _ _ _ _ W w q).
      * right. rewrite PE. left. reflexivity.
      * rewrite <- D. apply (wf_kwd _ _ _ _ W w x X).
  - injection S as <-. apply SAME; [unfold pend; rewrite WK; reflexivity|]. exact SO.
  - injection S as <-. apply SAME; [unfold pend; rewrite WK; reflexivity|]. exact Logic.I.
  - assert (PE : pend s = (w, e) :: r ++ queue (ker s)) by (unfold pend; rewrite WK; reflexivity).
    assert (SO' : forall l, sorted (WCre r l)) by (intros l x X; apply SO; right; exact X).
    assert (ID : forall l, (forall x i, watches (cl s) w = Some x -> w_dir x = None -> e <> EMkdir i) -> Inv (set_wrk s (WCre r l))).
    { intros l N. change (set_wrk s (WCre r l)) with (set_wrk (set_cl s (cl s)) (WCre r l)).
      apply (DROP _ w e (cl s)); auto. }
    destruct (watches (cl s) w) as [x|] eqn:X.
    2:{ injection S as <-. apply ID. intros x i Z. discriminate. }
    destruct e as [i|q|q|].
    + destruct (w_dir x) as [j|] eqn:D.
      { injection S as <-. apply ID. intros y i' Y. congruence. }
      injection S as <-. constructor; cbn.
      * apply (i_dead _ I).
      * unfold pend. cbn. rewrite PE in W. refine (wf_same _ _ _ _ (cl s) _ _ W _ _ eq_refl eq_refl _ _ _ _); auto.
        -- intros h y Y. exists y. auto.
        -- intros y Y. left. right. exact Y.
        -- intros w1 y i' Y DY [Z|Z]; [|auto]. injection Z as <- <-. right. eexists. split; [reflexivity|reflexivity].
        -- intros w1 i' Z. exfalso. apply (no_fnd_none _ _ Z).
      * apply (i_used _ I).
      * intros y Y. injection Y as <-. constructor; cbn; try tauto; try congruence.
        split; [apply (wf_mkdir _ _ _ _ W w i); rewrite PE; left; reflexivity|].
        exists x. split; [exact X|]. split; [exact D|]. intros h Hh. unfold imp. cbn. apply in_or_app. auto.
      * intros y w' i' _ _. eexists. eexists. reflexivity.
      * apply (SO' []).
    + destruct (w_dir x) as [j|] eqn:D.
      * injection S as <-. apply (DROP _ w (ECreate q)); auto; try (intros; discriminate). cbn. intros j' q' K. apply In_insert in K.
        destruct K as [K|K]; [|auto]. injection K as -> ->. right. exists w, x. auto.
      * injection S as <-. apply ID. intros; discriminate.
    + injection S as <-. destruct (w_dir x); apply ID; intros; discriminate.
    + injection S as <-. destruct (w_dir x); apply ID; intros; discriminate.
  - injection S as <-. apply SAME; [unfold pend; rewrite WK; reflexivity|]. exact Logic.I.
Qed.

Lemma call_handler_same c h :
  watches (call_handler c h) = watches c /\ watched (call_handler c h) = watched c /\
  known (call_handler c h) = known c /\ obsolete (call_handler c h) = obsolete c /\
  (forall h', searches c h' = None -> searches (call_handler c h) h' = None) /\
  (forall h' x, searches c h' = Some x -> exists y, searches (call_handler c h) h' = Some y /\
      s_dir y = s_dir x /\ s_q y = s_q x /\ s_wds y = s_wds x /\
      (h' <> h -> y = x) /\
      (h' = h -> ~ In h (obsolete c) -> forall i, In i (s_prev y) <-> In i (handles (known c) (s_dir x) (s_q x)))).
Proof.
  unfold call_handler. destruct (searches c h) as [x|] eqn:S.
  2:{ do 4 (split; [reflexivity|]). split; [auto|]. intros h' y Y. exists y. split; [exact Y|]. do 3 (split; [reflexivity|]). split; [auto|]. congruence. }
  destruct (mem h (obsolete c)) eqn:M.
  { do 4 (split; [reflexivity|]). split; [auto|]. intros h' y Y. exists y. split; [exact Y|]. do 3 (split; [reflexivity|]). split; [auto|].
    apply mem_In in M. tauto. }
  destruct (same_set (s_prev x) (handles (known c) (s_dir x) (s_q x))) eqn:Q.
  { do 4 (split; [reflexivity|]). split; [auto|]. intros h' y Y. exists y. split; [exact Y|]. do 3 (split; [reflexivity|]). split; [auto|].
    intros -> _ i. assert (y = x) by congruence. subst y. apply same_set_spec with (i := i) in Q. exact Q. }
  do 4 (split; [reflexivity|]). split.
  { intros h' Z. cbn. destruct (h =? h') eqn:B; [apply Nat.eqb_eq in B; congruence|exact Z]. }
  intros h' y Y. cbn. destruct (h =? h') eqn:B.
  - apply Nat.eqb_eq in B. subst h'. assert (y = x) by congruence. subst y. eexists. split; [reflexivity|]. cbn.
    do 3 (split; [reflexivity|]). split; [congruence|]. intros _ _ i. reflexivity.
  - apply Nat.eqb_neq in B. exists y. split; [exact Y|]. do 3 (split; [reflexivity|]). split; [auto|congruence].
Qed.

Lemma inv_handle s h s' : Inv s -> step s (WHandle h) = Some s' -> Inv s'.
Proof.
  intros I S. unfold step in S. rewrite (i_dead _ I) in S. destruct (crw s) as [cx|] eqn:CN; [discriminate|].
  pose proof (i_wf _ I) as W. rewrite CN in W. pose proof (i_sorted _ I) as SO.
  destruct (call_handler_same (cl s) h) as (E1 & E2 & E3 & E4 & E5 & E6).
  assert (G : forall w', batch_of w' ++ queue (ker s) = pend s -> sorted w' -> Inv (set_wrk (set_cl s (call_handler (cl s) h)) w')).
  { intros w' E SW. constructor; cbn.
    - apply (i_dead _ I).
    - rewrite CN. unfold pend. cbn. rewrite E. refine (wf_same _ _ _ _ (call_handler (cl s) h) _ _ W E5 _ E1 E2 _ _ _ _); auto.
      + intros h' x X. destruct (E6 h' x X) as (y & Y1 & Y2 & Y3 & Y4 & _). exists y. auto.
      + intros i q K. rewrite E3 in K. auto.
    - intros h' x X. destruct (searches (cl s) h') as [y|] eqn:Y; [apply (i_used _ I h' y Y)|]. rewrite (E5 h' Y) in X. discriminate.
    - intros x X. congruence.
    - intros x w i X. congruence.
    - exact SW. }
  destruct (wrk s) as [| | |keys cre| |keys] eqn:WK; try discriminate; destruct (mem h keys); try discriminate; injection S as <-.
  - apply G; [unfold pend; rewrite WK; reflexivity|exact SO].
  - apply G; [unfold pend; rewrite WK; reflexivity|exact Logic.I].
Qed.

(** The crawl of a directory just created does not fail over and over. *)
Definition lucky (l : label) : Prop := l <> FoundFail.

Theorem inv_step s l s' : Inv s -> lucky l -> step s l = Some s' -> Inv s'.
Proof.
  intros I LU S. destruct l.
  - apply (inv_fs s _ s' I S Logic.I).
  - apply (inv_fs s _ s' I S Logic.I).
  - apply (inv_fs s _ s' I S Logic.I).
  - apply (inv_start _ _ _ _ _ I S).
  - apply (inv_stop _ _ _ I S).
  - apply (inv_crawl _ _ I S).
  - apply (inv_fail _ _ _ I S).
  - apply (inv_again _ _ I S).
  - exfalso. apply LU. reflexivity.
  - apply (inv_read _ _ _ I S).
  - apply (inv_worker _ _ I S).
  - apply (inv_handle _ _ _ I S).
Qed.
