(** Proofs about service discovery: the invariant is kept by every step. *)
From Verif Require Import Base SdModel SdProofs.

(** * Changes of the file system and of the watches *)

Record kmore (k k' : kernel) (new : list (wd * ev)) : Prop := {
  km_kwd : forall d w, kwd k d = Some w -> kwd k' d = Some w;
  km_back : forall d w, kwd k' d = Some w -> kwd k d = Some w \/
              kwd k d = None /\ w = nxt k /\ nxt k' = S (nxt k) /\
              (forall d', kwd k' d' = Some w -> d' = d) /\ (forall i, d = Some i -> In i (dirs k'));
  km_nxt : nxt k <= nxt k';
  km_dirs : forall i, In i (dirs k) -> In i (dirs k');
  km_new : forall i, In i (dirs k') -> In i (dirs k) \/ forall w, kwd k None = Some w -> In (w, EMkdir i) new;
  km_files : forall i q, In (i, q) (files k') -> In i (dirs k');
  km_ev : forall w e, In (w, e) new -> exists d, kwd k d = Some w /\
            match e with ECreate _ | EDelete _ => d <> None | EMkdir i => In i (dirs k') | EIgnored => False end;
  km_queue : queue k' = queue k ++ new;
}.

Lemma wf_kmore P k c F k' new : Wf P k c F -> kmore k k' new -> Wf (P ++ new) k' c F.
Proof.
  intros W M. constructor.
  - intros d d' w A B. destruct (km_back _ _ _ M _ _ A) as [A'|(A1 & A2 & A3 & A4 & A5)].
    + destruct (km_back _ _ _ M _ _ B) as [B'|(B1 & B2 & B3 & B4 & B5)].
      * apply (wf_inj _ _ _ _ W d d' w A' B').
      * apply (wf_lt _ _ _ _ W) in A'. lia.
    + symmetry. apply A4. exact B.
  - intros d w A. pose proof (km_nxt _ _ _ M). destruct (km_back _ _ _ M _ _ A) as [A'|(A1 & A2 & A3 & A4 & A5)].
    + apply (wf_lt _ _ _ _ W) in A'. lia.
    + lia.
  - intros w e I. pose proof (km_nxt _ _ _ M). apply in_app_or in I. destruct I as [I|I].
    + apply (wf_pend _ _ _ _ W) in I. lia.
    + destruct (km_ev _ _ _ M _ _ I) as (d & D & _). apply (wf_lt _ _ _ _ W) in D. lia.
  - apply (km_files _ _ _ M).
  - intros i w A. destruct (km_back _ _ _ M _ _ A) as [A'|(A1 & A2 & A3 & A4 & A5)].
    + apply (km_dirs _ _ _ M). apply (wf_dirs _ _ _ _ W i w A').
    + apply A5. reflexivity.
  - intros w q I A.
    assert (I' : (In (w, ECreate q) P \/ In (w, EDelete q) P) \/ exists d, kwd k d = Some w /\ d <> None).
    { destruct I as [I|I]; apply in_app_or in I; destruct I as [I|I]; auto; right;
        destruct (km_ev _ _ _ M _ _ I) as (d & D & N); exists d; auto. }
    destruct (km_back _ _ _ M _ _ A) as [A'|(A1 & A2 & A3 & A4 & A5)].
    + destruct I' as [I'|(d & D & N)].
      * apply (wf_flag _ _ _ _ W w q I' A').
      * apply N. apply (wf_inj _ _ _ _ W d None w D A').
    + destruct I' as [[I'|I']|(d & D & N)].
      * apply (wf_pend _ _ _ _ W) in I'. lia.
      * apply (wf_pend _ _ _ _ W) in I'. lia.
      * apply (wf_lt _ _ _ _ W) in D. lia.
  - intros w i I. apply in_app_or in I. destruct I as [I|I].
    + apply (km_dirs _ _ _ M). apply (wf_mkdir _ _ _ _ W w i I).
    + destruct (km_ev _ _ _ M _ _ I) as (d & D & N). exact N.
  - intros w x X. apply (km_kwd _ _ _ M). apply (wf_kwd _ _ _ _ W w x X).
  - apply (wf_known _ _ _ _ W).
  - apply (wf_wh _ _ _ _ W).
  - apply (wf_hw _ _ _ _ W).
  - apply (wf_nodup _ _ _ _ W).
  - apply (wf_main _ _ _ _ W).
  - apply (wf_some _ _ _ _ W).
  - intros w x h i X D H I. destruct (km_new _ _ _ M i I) as [I'|I'].
    + destruct (wf_kids _ _ _ _ W w x h i X D H I') as [A|[A|A]]; [left; exact A| |right; right; exact A].
      right. left. apply in_or_app. left. exact A.
    + right. left. apply in_or_app. right. apply I'. pose proof (wf_kwd _ _ _ _ W w x X) as Z. rewrite D in Z. exact Z.
  - apply (wf_mok _ _ _ _ W).
Qed.

Lemma kmore_refl P k c F : Wf P k c F -> kmore k k [].
Proof.
  intros W. constructor; auto.
  - apply (wf_files _ _ _ _ W).
  - intros w e [].
  - rewrite app_nil_r. reflexivity.
Qed.

Lemma emit_In k d e w e' : In (w, e') (emit k d e) -> e' = e /\ kwd k d = Some w.
Proof. unfold emit. destruct (kwd k d) as [w1|]; [|intros []]. intros [E|[]]. injection E as -> ->. auto. Qed.

Lemma kmore_mkdir P k c F i : Wf P k c F -> exists new, kmore k (mkdir k i) new /\ forall w e, In (w, e) new -> e = EMkdir i.
Proof.
  intros W. unfold mkdir. destruct (mem i (dirs k)) eqn:E.
  - exists []. split; [apply (kmore_refl _ _ _ _ W)|intros w e []].
  - exists (emit k None (EMkdir i)). split; [constructor; cbn; auto|].
    + intros j [<-|J]; [|auto]. right. intros w Z. unfold emit. rewrite Z. left. reflexivity.
    + intros j q I. right. apply (wf_files _ _ _ _ W j q I).
    + intros w e I. apply emit_In in I. destruct I as [-> K]. exists None. split; [exact K|]. left. reflexivity.
    + intros w e I. apply emit_In in I. apply I.
Qed.

Lemma mkdir_In k i : In i (dirs (mkdir k i)).
Proof. unfold mkdir. destruct (mem i (dirs k)) eqn:E; [apply mem_In; exact E|left; reflexivity]. Qed.

Lemma mkdir_frame k i : files (mkdir k i) = files k /\ kwd (mkdir k i) = kwd k.
Proof. unfold mkdir. destruct (mem i (dirs k)); auto. Qed.

Lemma kmore_create P k c F i q : Wf P k c F -> In i (dirs k) -> kmore k (create k i q) (emit k (Some i) (ECreate q)).
Proof.
  intros W D. constructor; cbn; auto.
  - intros j r [E|I]; [injection E as <- _; exact D|apply (wf_files _ _ _ _ W j r I)].
  - intros w e I. apply emit_In in I. destruct I as [-> K]. exists (Some i). split; [exact K|discriminate].
Qed.

Lemma kmore_delete P k c F i q : Wf P k c F -> kmore k (delete k i q) (emit k (Some i) (EDelete q)).
Proof.
  intros W. constructor; cbn; auto.
  - intros j r I. apply filter_In in I. apply (wf_files _ _ _ _ W j r). apply I.
  - intros w e I. apply emit_In in I. destruct I as [-> K]. exists (Some i). split; [exact K|discriminate].
Qed.

Lemma kmore_trans P k c F k1 k2 n1 n2 :
  Wf P k c F -> kmore k k1 n1 -> kmore k1 k2 n2 -> (kwd k1 = kwd k) -> nxt k1 = nxt k -> kmore k k2 (n1 ++ n2).
Proof.
  intros W A B EK EN. constructor.
  - intros d w Z. apply (km_kwd _ _ _ B). rewrite EK. exact Z.
  - intros d w Z. pose proof (km_back _ _ _ B _ _ Z) as Q. rewrite EK, EN in Q. exact Q.
  - rewrite <- EN. apply (km_nxt _ _ _ B).
  - intros i I. apply (km_dirs _ _ _ B), (km_dirs _ _ _ A), I.
  - intros i I. destruct (km_new _ _ _ B i I) as [I1|I1].
    + destruct (km_new _ _ _ A i I1) as [I2|I2]; [auto|]. right. intros w Z. apply in_or_app. left. apply I2. exact Z.
    + right. intros w Z. apply in_or_app. right. apply I1. rewrite EK. exact Z.
  - apply (km_files _ _ _ B).
  - intros w e I. apply in_app_or in I. destruct I as [I|I].
    + destruct (km_ev _ _ _ A _ _ I) as (d & D & E). exists d. split; [exact D|]. destruct e; auto. apply (km_dirs _ _ _ B), E.
    + destruct (km_ev _ _ _ B _ _ I) as (d & D & E). exists d. rewrite EK in D. auto.
  - rewrite (km_queue _ _ _ B), (km_queue _ _ _ A), app_assoc. reflexivity.
Qed.

(** add_watch: what it does and that the directory is watched afterwards. *)
Lemma add_watch_spec P k c F d k' w :
  Wf P k c F -> add_watch k d = (k', w) ->
  (exists new, kmore k k' new /\ forall w' e, In (w', e) new -> exists i, e = EMkdir i) /\
  kwd k' d = Some w /\ files k' = files k /\ (forall i, d = Some i -> In i (dirs k')) /\
  (forall d', d' <> d -> kwd k' d' = kwd k d') /\
  (kwd k d = Some w \/ kwd k d = None /\ w = nxt k).
Proof.
  intros W E. unfold add_watch in E.
  set (k1 := match d with Some i => mkdir k i | None => k end) in *.
  assert (K1 : (exists new, kmore k k1 new /\ forall w' e, In (w', e) new -> exists i, e = EMkdir i) /\
               files k1 = files k /\ kwd k1 = kwd k /\ nxt k1 = nxt k /\ forall i, d = Some i -> In i (dirs k1)).
  { unfold k1. destruct d as [i|].
    - destruct (kmore_mkdir P k c F i W) as (new & M & N). destruct (mkdir_frame k i) as [F1 F2].
      split; [exists new; split; [exact M|intros w' e I; exists i; apply (N w' e I)]|]. split; [exact F1|]. split; [exact F2|].
      split; [unfold mkdir; destruct (mem i (dirs k)); reflexivity|]. intros j J. injection J as <-. apply mkdir_In.
    - split; [exists []; split; [apply (kmore_refl _ _ _ _ W)|intros w' e []]|]. repeat split. discriminate. }
  clearbody k1. destruct K1 as ((new & M & N) & FI & KE & NE & DI). rewrite KE in E. destruct (kwd k d) as [w0|] eqn:Q.
  - injection E as <- <-. split; [exists new; auto|]. split; [rewrite KE; exact Q|]. split; [exact FI|]. split; [exact DI|].
    split; [intros d' _; rewrite KE; reflexivity|auto].
  - injection E as <- <-. cbn. rewrite dir_eqb_refl. split; [|split; [reflexivity|]].
    + exists (new ++ []). split; [|intros w' e I; rewrite app_nil_r in I; apply (N w' e I)].
      refine (kmore_trans P k c F k1 _ new [] W M _ KE NE).
      pose proof (wf_kmore _ _ _ _ _ _ W M) as W1.
      constructor; cbn; auto.
      * intros d' w' Z. destruct (dir_eqb d d') eqn:B; [|rewrite <- KE; exact Z]. apply dir_eqb_eq in B. subst d'. rewrite KE in Z. congruence.
      * intros d' w' Z. destruct (dir_eqb d d') eqn:B; [|left; rewrite KE; exact Z]. apply dir_eqb_eq in B. subst d'. right.
        injection Z as <-. split; [rewrite KE; exact Q|]. split; [reflexivity|]. split; [reflexivity|]. split; [|exact DI].
        intros d' Z. destruct (dir_eqb d d') eqn:B; [apply dir_eqb_eq in B; auto|]. rewrite NE in Z.
        apply (wf_lt _ _ _ _ W) in Z. lia.
      * apply (wf_files _ _ _ _ W1).
      * intros w' e [].
      * rewrite app_nil_r. reflexivity.
    + split; [exact FI|]. split; [exact DI|]. split; [|auto].
      intros d' ND. rewrite dir_eqb_neq by congruence. rewrite ?KE. reflexivity.
Qed.

(** * Searches and links added *)

Lemma wf_grown P k c F c0 N c' found :
  Wf P k c F ->
  watches c0 = watches c -> watched c0 = watched c -> known c0 = known c ->
  (forall h s, searches c h = Some s -> searches c0 h = Some s) ->
  (forall h s, searches c0 h = Some s -> searches c h = Some s \/
     searches c h = None /\ s_wds s = [] /\ exists w, N w (s_dir s) h) ->
  grown c0 N c' ->
  (forall w d h, N w d h -> kwd k d = Some w /\ exists s, searches c0 h = Some s) ->
  (forall w h i, N w None h -> In i (dirs k) -> (exists w', N w' (Some i) h) \/ In (w, EMkdir i) P) ->
  (forall w x h i, fnd F w i -> watches c w = Some x -> w_dir x = None -> In h (w_hs x) -> exists w', N w' (Some i) h) ->
  (forall i q, In (i, q) found -> exists w h, N w (Some i) h) ->
  Wf P k (set_known c' (merge found (known c'))) None.
Proof.
  intros W EW ED EK SO SN G NK NN NF FO.
  assert (M0 : Mok c0).
  { refine (mok_ext c c0 ED _ _ (wf_mok _ _ _ _ W)); rewrite EW; intros w x X; exists x; auto. }
  (* a watch after, seen from before *)
  assert (OLD : forall w x', watches c' w = Some x' ->
            kwd k (w_dir x') = Some w /\
            (forall h, In h (w_hs x') <-> (exists x, watches c w = Some x /\ In h (w_hs x)) \/ exists d, N w d h) /\
            (exists h, In h (w_hs x')) /\
            (forall x, watches c w = Some x -> w_dir x = w_dir x')).
  { intros w x' X'. destruct (watches c w) as [x|] eqn:X.
    - assert (X0 : watches c0 w = Some x) by (rewrite EW; exact X).
      destruct (g_kept _ _ _ G w x X0) as (x2 & X2 & D2 & H2). assert (x2 = x') by congruence. subst x2.
      split; [rewrite D2; apply (wf_kwd _ _ _ _ W w x X)|]. split.
      + intros h. rewrite H2. split; [intros [A|A]; [left; exists x; auto|auto]|]. intros [(y & Y & A)|A]; [left; congruence|auto].
      + split; [|intros y Y; congruence]. destruct (wf_some _ _ _ _ W w x X) as (h & H). exists h. apply H2. auto.
    - assert (X0 : watches c0 w = None) by (rewrite EW; exact X).
      destruct (g_new _ _ _ G w x' X0 X') as (d & D2 & (h & H) & H2).
      split; [rewrite D2; apply (NK w d h H)|]. split.
      + intros h'. rewrite H2. split; [auto|]. intros [(y & Y & _)|A]; [discriminate|exact A].
      + split; [exists h; apply H2; exists d; exact H|discriminate]. }
  assert (NEW : forall w d h, N w d h -> exists x', watches c' w = Some x' /\ w_dir x' = d /\ In h (w_hs x')).
  { intros w d h H. destruct (g_there _ _ _ G w d h H) as (x' & X'). exists x'. split; [exact X'|].
    destruct (OLD w x' X') as (A & B & _). split; [|apply B; right; exists d; exact H].
    apply (wf_inj _ _ _ _ W _ _ w A). apply (NK w d h H). }
  assert (KEEP : forall w x, watches c w = Some x -> exists x', watches c' w = Some x' /\ w_dir x' = w_dir x /\ forall h, In h (w_hs x) -> In h (w_hs x')).
  { intros w x X. assert (X0 : watches c0 w = Some x) by (rewrite EW; exact X).
    destruct (g_kept _ _ _ G w x X0) as (x2 & X2 & D2 & H2). exists x2. split; [exact X2|]. split; [exact D2|].
    intros h H. apply H2. auto. }
  assert (SOLD : forall h s', searches c' h = Some s' -> exists s, searches c0 h = Some s /\
             s_dir s' = s_dir s /\ (NoDup (s_wds s) -> NoDup (s_wds s')) /\
             forall w, In w (s_wds s') <-> In w (s_wds s) \/ exists d, N w d h).
  { intros h s' S'. destruct (searches c0 h) as [s|] eqn:S.
    - destruct (g_some _ _ _ G h s S) as (s2 & A1 & A2 & A3 & A4 & A5 & A6). assert (s2 = s') by congruence. subst s2.
      exists s. auto.
    - rewrite (g_none _ _ _ G h S) in S'. discriminate. }
  constructor.
  - apply (wf_inj _ _ _ _ W).
  - apply (wf_lt _ _ _ _ W).
  - apply (wf_pend _ _ _ _ W).
  - apply (wf_files _ _ _ _ W).
  - apply (wf_dirs _ _ _ _ W).
  - apply (wf_flag _ _ _ _ W).
  - apply (wf_mkdir _ _ _ _ W).
  - intros w x' X'. apply (OLD w x' X').
  - intros i q K. cbn in K. apply In_merge in K. destruct K as [K|K].
    + destruct (FO i q K) as (w & h & H). destruct (NEW w _ h H) as (x' & X' & D' & _). exists w, x'. auto.
    + rewrite (g_known _ _ _ G), EK in K. destruct (wf_known _ _ _ _ W i q K) as (w & x & X & D).
      destruct (KEEP w x X) as (x' & X' & D' & _). exists w, x'. split; [exact X'|congruence].
  - intros w x' h X' I. destruct (OLD w x' X') as (_ & B & _). apply B in I. destruct I as [(x & X & I)|(d & I)].
    + destruct (wf_wh _ _ _ _ W w x h X I) as (s & S & SI). destruct (g_some _ _ _ G h s (SO h s S)) as (s2 & A1 & _ & _ & _ & _ & A6).
      exists s2. split; [exact A1|]. apply A6. auto.
    + destruct (NK w d h I) as (_ & s & S). destruct (g_some _ _ _ G h s S) as (s2 & A1 & _ & _ & _ & _ & A6).
      exists s2. split; [exact A1|]. apply A6. right. exists d. exact I.
  - intros h s' w S' I. destruct (SOLD h s' S') as (s & S & _ & _ & A). apply A in I. destruct I as [I|(d & I)].
    + destruct (SN h s S) as [S0|(_ & Z & _)]; [|rewrite Z in I; destruct I].
      destruct (wf_hw _ _ _ _ W h s w S0 I) as (x & X & HX). destruct (KEEP w x X) as (x' & X' & _ & H'). exists x'. auto.
    + destruct (NEW w d h I) as (x' & X' & _ & H'). exists x'. auto.
  - intros h s' S'. destruct (SOLD h s' S') as (s & S & _ & A & _). apply A.
    destruct (SN h s S) as [S0|(_ & Z & _)]; [apply (wf_nodup _ _ _ _ W h s S0)|rewrite Z; constructor].
  - intros h s' S'. destruct (SOLD h s' S') as (s & S & D & _). rewrite D. destruct (SN h s S) as [S0|(_ & _ & w & H)].
    + destruct (wf_main _ _ _ _ W h s S0) as (w & x & X & DX & HX). destruct (KEEP w x X) as (x' & X' & D' & H').
      exists w, x'. split; [exact X'|]. split; [congruence|auto].
    + destruct (NEW w _ h H) as (x' & X' & D' & H'). exists w, x'. auto.
  - intros w x' X'. destruct (OLD w x' X') as (_ & _ & A & _). exact A.
  - intros w x' h i X' D' I DI. destruct (OLD w x' X') as (A & B & _ & C). apply B in I. destruct I as [(x & X & I)|(d & I)].
    + pose proof (C x X) as DX. rewrite D' in DX.
      destruct (wf_kids _ _ _ _ W w x h i X DX I DI) as [(w2 & x2 & X2 & D2 & H2)|[Z|Z]].
      * left. destruct (KEEP w2 x2 X2) as (x3 & X3 & D3 & H3). exists w2, x3. split; [exact X3|]. split; [congruence|auto].
      * auto.
      * left. destruct (NF w x h i Z X DX I) as (w2 & H2). destruct (NEW w2 _ h H2) as (x3 & X3 & D3 & H3). exists w2, x3. auto.
    + assert (d = None).
      { destruct (NK w d h I) as (Z & _). rewrite D' in A. apply (wf_inj _ _ _ _ W _ _ w Z A). }
      subst d. destruct (NN w h i I DI) as [(w2 & H2)|Z]; [|auto].
      left. destruct (NEW w2 _ h H2) as (x3 & X3 & D3 & H3). exists w2, x3. auto.
  - pose proof (g_mok _ _ _ G M0) as MM.
    refine (mok_ext c' (set_known c' (merge found (known c'))) eq_refl _ _ MM); intros w x X; exists x; auto.
Qed.

(** Only fields no structure depends on differ. *)
Lemma wf_same P P' k c c' F F' :
  Wf P k c F ->
  (forall h, searches c h = None -> searches c' h = None) ->
  (forall h s, searches c h = Some s -> exists s', searches c' h = Some s' /\ s_dir s' = s_dir s /\ s_wds s' = s_wds s) ->
  watches c' = watches c -> watched c' = watched c ->
  (forall i q, In (i, q) (known c') -> In (i, q) (known c) \/ exists w x, watches c w = Some x /\ w_dir x = Some i) ->
  (forall x, In x P' -> In x P \/ snd x = EIgnored /\ fst x < nxt k) ->
  (forall w x i, watches c w = Some x -> w_dir x = None -> In (w, EMkdir i) P -> In (w, EMkdir i) P' \/ fnd F' w i) ->
  (forall w i, fnd F w i -> fnd F' w i) ->
  Wf P' k c' F'.
Proof.
  intros W SN SS EW ED EK IP MP FF.
  assert (SB : forall h s', searches c' h = Some s' -> exists s, searches c h = Some s /\ s_dir s' = s_dir s /\ s_wds s' = s_wds s).
  { intros h s' S'. destruct (searches c h) as [s|] eqn:S; [|rewrite (SN h S) in S'; discriminate].
    destruct (SS h s S) as (s2 & A & B & C). assert (s2 = s') by congruence. subst s2. exists s. auto. }
  constructor.
  - apply (wf_inj _ _ _ _ W).
  - apply (wf_lt _ _ _ _ W).
  - intros w e I. destruct (IP _ I) as [J|J]; [apply (wf_pend _ _ _ _ W w e J)|apply J].
  - apply (wf_files _ _ _ _ W).
  - apply (wf_dirs _ _ _ _ W).
  - intros w q I. apply (wf_flag _ _ _ _ W w q). destruct I as [I|I]; destruct (IP _ I) as [J|[J _]]; auto; discriminate.
  - intros w i I. destruct (IP _ I) as [J|[J _]]; [|discriminate]. apply (wf_mkdir _ _ _ _ W w i J).
  - rewrite EW. apply (wf_kwd _ _ _ _ W).
  - intros i q K. rewrite EW. destruct (EK i q K) as [K'|K']; [apply (wf_known _ _ _ _ W i q K')|exact K'].
  - intros w x h X I. rewrite EW in X. destruct (wf_wh _ _ _ _ W w x h X I) as (s & S & SI).
    destruct (SS h s S) as (s2 & A & B & C). exists s2. split; [exact A|]. rewrite C. exact SI.
  - intros h s' w S' I. destruct (SB h s' S') as (s & S & A & B). rewrite B in I. rewrite EW. apply (wf_hw _ _ _ _ W h s w S I).
  - intros h s' S'. destruct (SB h s' S') as (s & S & A & B). rewrite B. apply (wf_nodup _ _ _ _ W h s S).
  - intros h s' S'. destruct (SB h s' S') as (s & S & A & B). rewrite A, EW. apply (wf_main _ _ _ _ W h s S).
  - rewrite EW. apply (wf_some _ _ _ _ W).
  - rewrite EW. intros w x h i X D I DI. destruct (wf_kids _ _ _ _ W w x h i X D I DI) as [Z|[Z|Z]].
    + auto.
    + destruct (MP w x i X D Z); auto.
    + auto.
  - refine (mok_ext c c' ED _ _ (wf_mok _ _ _ _ W)); rewrite EW; intros w x X; exists x; auto.
Qed.

(** * The crawl *)

Definition listed (P : list (wd * ev)) (k : kernel) (l : list inst) : Prop :=
  forall i, In i (dirs k) -> In i l \/ forall w, kwd k None = Some w -> In (w, EMkdir i) P.

Record Wx (P : list (wd * ev)) (k : kernel) (c : client) (us im : list handle) (x : crawl) : Prop := {
  x_who : match c_who x with
          | Start h _ _ => In h us /\ searches c h = None
          | Found w0 i => In i (dirs k) /\ exists x0, watches c w0 = Some x0 /\ w_dir x0 = None /\ forall h, In h (w_hs x0) -> In h im
          end;
  x_wds : forall w d, In (w, d) (c_wds x) -> kwd k d = Some w;
  x_none : forall w, In (w, None) (c_wds x) -> crawl_dir (c_who x) = None;
  x_inst : forall w i, In (w, Some i) (c_wds x) -> In i (c_insts x);
  x_main : c_phase x <> PMain -> exists w, In (w, crawl_dir (c_who x)) (c_wds x);
  x_one : forall i, c_phase x <> PMain -> crawl_dir (c_who x) = Some i ->
            (exists w, c_wds x = [(w, Some i)]) /\ c_insts x = [i] /\ exists t, c_phase x = PCheck t;
  x_dirs : forall i, In i (c_insts x) -> In i (dirs k);
  x_found : forall i q, In (i, q) (c_found x) -> In i (c_insts x);
  x_todo : forall t i q, c_phase x = PCheck t -> In (i, q) t -> In i (c_insts x);
  x_list : crawl_dir (c_who x) = None ->
           match c_phase x with
           | PMain | PList => True
           | PAdd todo => listed P k (c_insts x) /\ (forall i, In i todo -> In i (c_insts x)) /\
                          forall i, In i (c_insts x) -> In i todo \/ exists w, In (w, Some i) (c_wds x)
           | PCheck _ => listed P k (c_insts x) /\ forall i, In i (c_insts x) -> exists w, In (w, Some i) (c_wds x)
           end;
}.

Lemma x_every P k c us im x t : Wx P k c us im x -> c_phase x = PCheck t -> forall i, In i (c_insts x) -> exists w, In (w, Some i) (c_wds x) /\ kwd k (Some i) = Some w.
Proof.
  intros X PH i I. assert (Z : exists w, In (w, Some i) (c_wds x)).
  { destruct (crawl_dir (c_who x)) as [j|] eqn:D.
    - destruct (x_one _ _ _ _ _ _ X j) as ((w & A) & B & _); [rewrite PH; discriminate|exact D|].
      rewrite B in I. destruct I as [<-|[]]. exists w. rewrite A. left. reflexivity.
    - pose proof (x_list _ _ _ _ _ _ X D) as L. rewrite PH in L. apply L. exact I. }
  destruct Z as (w & Z). exists w. split; [exact Z|]. apply (x_wds _ _ _ _ _ _ X w (Some i) Z).
Qed.

Lemma wx_kmore P k c us im x k' new :
  Wx P k c us im x -> kmore k k' new -> kwd k' None = kwd k None -> Wx (P ++ new) k' c us im x.
Proof.
  intros X M E.
  assert (LI : forall l, listed P k l -> listed (P ++ new) k' l).
  { intros l L i I. destruct (km_new _ _ _ M i I) as [J|J].
    - destruct (L i J) as [Z|Z]; [auto|]. right. intros w K. apply in_or_app. left. apply Z. rewrite <- E. exact K.
    - right. intros w K. apply in_or_app. right. apply J. rewrite <- E. exact K. }
  destruct X. constructor; auto.
  - destruct (c_who x) as [h d q|w0 i]; [exact x_who0|]. destruct x_who0 as [A B]. split; [apply (km_dirs _ _ _ M); exact A|exact B].
  - intros w d I. apply (km_kwd _ _ _ M). auto.
  - intros i I. apply (km_dirs _ _ _ M). auto.
  - intros D. specialize (x_list0 D). destruct (c_phase x); auto.
    + destruct x_list0 as (A & B & C). split; [apply LI; exact A|]. auto.
    + destruct x_list0 as (A & B). split; [apply LI; exact A|]. auto.
Qed.
