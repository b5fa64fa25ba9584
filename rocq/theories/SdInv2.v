(** Proofs about service discovery: what is known and told follows the flag files. *)
From Verif Require Import Base SdModel SdProofs SdInv SdInv1.

Local Arguments handles : simpl never.
Local Arguments merge : simpl never.
Local Arguments insert : simpl never.
Local Arguments remove : simpl never.
Local Arguments add_watch : simpl never.
Local Arguments pairs : simpl never.
Local Arguments transfer_all : simpl never.
Local Arguments transfer_new : simpl never.
Local Arguments mkdir : simpl never.
Local Arguments create : simpl never.
Local Arguments delete : simpl never.

Definition fits (d : dir) (i : inst) : Prop := d = None \/ d = Some i.

(** Why a search has not been told yet. *)
Inductive due (P : list (wd * ev)) (c : client) (im : list handle) (h : handle) (x : search) (i : inst) : Prop :=
| due_event w y : watches c w = Some y -> w_dir y = Some i -> In h (w_hs y) -> lastev P w (s_q x) <> None -> due P c im h x i
| due_imp : In h im -> due P c im h x i
| due_mkdir w y : s_dir x = None -> watches c w = Some y -> w_dir y = None -> In h (w_hs y) -> In (w, EMkdir i) P -> due P c im h x i.

Record Con (P : list (wd * ev)) (k : kernel) (c : client) (im : list handle) : Prop := {
  k_last : forall i w q b, kwd k (Some i) = Some w -> lastev P w q = Some b -> (b = true <-> In (i, q) (files k));
  c_same : forall i w x q, watches c w = Some x -> w_dir x = Some i -> lastev P w q = None ->
             (In (i, q) (known c) <-> In (i, q) (files k));
  r_told : forall h x i, searches c h = Some x -> ~ In h (obsolete c) -> fits (s_dir x) i ->
             (In i (s_prev x) <-> In (i, s_q x) (known c)) \/ due P c im h x i;
  r_match : forall h x i, searches c h = Some x -> In i (s_prev x) -> fits (s_dir x) i;
}.

Definition ConX (P : list (wd * ev)) (k : kernel) (x : crawl) : Prop :=
  forall t i q, c_phase x = PCheck t -> In i (c_insts x) ->
    forall w, kwd k (Some i) = Some w -> lastev P w q = None ->
      (In (i, q) (c_found x) -> In (i, q) (files k)) /\ (In (i, q) (files k) -> In (i, q) t \/ In (i, q) (c_found x)).

Record Inv2 (s : st) : Prop := {
  j_con : Con (pend s) (ker s) (cl s) (imp s);
  j_crw : forall x, crw s = Some x -> ConX (pend s) (ker s) x;
  j_flip : forall b, wrk s = WGot b -> no_flip b = true;
}.

Lemma inv2_init : Inv2 init.
Proof. constructor; cbn; try discriminate. constructor; cbn; try discriminate. Qed.

(** A search is linked to the directory it wants, or is about to be. *)
Lemma linked P k c F h x i :
  Wf P k c F -> searches c h = Some x -> fits (s_dir x) i -> In i (dirs k) ->
  (exists w y, watches c w = Some y /\ w_dir y = Some i /\ In h (w_hs y)) \/
  s_dir x = None /\ exists w y, watches c w = Some y /\ w_dir y = None /\ In h (w_hs y) /\ (In (w, EMkdir i) P \/ fnd F w i).
Proof.
  intros W S [D|D] DI; destruct (wf_main _ _ _ _ W h x S) as (w & y & Y & YD & YH); rewrite D in YD.
  - destruct (wf_kids _ _ _ _ W w y h i Y YD YH DI) as [A|A]; [left; exact A|].
    right. split; [exact D|]. exists w, y. auto.
  - left. exists w, y. auto.
Qed.

Lemma stored_dirs P k c F w x i : Wf P k c F -> watches c w = Some x -> w_dir x = Some i -> In i (dirs k).
Proof. intros W X D. apply (wf_dirs _ _ _ _ W i w). rewrite <- D. apply (wf_kwd _ _ _ _ W w x X). Qed.

Lemma stored_unique P k c F w w' x x' : Wf P k c F -> watches c w = Some x -> watches c w' = Some x' -> w_dir x = w_dir x' -> w = w'.
Proof.
  intros W X X' D. pose proof (wf_kwd _ _ _ _ W w x X) as A. pose proof (wf_kwd _ _ _ _ W w' x' X') as B. congruence.
Qed.

Lemma due_mono P P' c c' im im' h x i :
  due P c im h x i ->
  (forall w y, watches c w = Some y -> In h (w_hs y) -> exists y', watches c' w = Some y' /\ w_dir y' = w_dir y /\ In h (w_hs y')) ->
  (forall w y, watches c w = Some y -> w_dir y = Some i -> In h (w_hs y) -> lastev P w (s_q x) <> None -> lastev P' w (s_q x) <> None \/ In h im') ->
  (In h im -> In h im') ->
  (forall w y, watches c w = Some y -> w_dir y = None -> In h (w_hs y) -> In (w, EMkdir i) P -> In (w, EMkdir i) P' \/ In h im') ->
  due P' c' im' h x i.
Proof.
  intros D A B C E. destruct D as [w y Y1 Y2 Y3 Y4|Y1|w y Y0 Y1 Y2 Y3 Y4].
  - destruct (B w y Y1 Y2 Y3 Y4) as [Z|Z]; [|apply due_imp; exact Z]. destruct (A w y Y1 Y3) as (y' & A1 & A2 & A3).
    apply (due_event _ _ _ _ _ _ w y'); congruence.
  - apply due_imp. auto.
  - destruct (E w y Y1 Y2 Y3 Y4) as [Z|Z]; [|apply due_imp; exact Z]. destruct (A w y Y1 Y3) as (y' & A1 & A2 & A3).
    apply (due_mkdir _ _ _ _ _ _ w y'); congruence.
Qed.

Lemma due_same P c im h x x' i : s_dir x' = s_dir x -> s_q x' = s_q x -> due P c im h x i -> due P c im h x' i.
Proof.
  intros E1 E2 D. destruct D as [w y Y1 Y2 Y3 Y4|Y1|w y Y0 Y1 Y2 Y3 Y4].
  - apply (due_event _ _ _ _ _ _ w y); auto. rewrite E2. exact Y4.
  - apply due_imp. exact Y1.
  - apply (due_mkdir _ _ _ _ _ _ w y); auto. congruence.
Qed.

(** ** The kernel *)

Lemma lastev_mk P new w q : (forall w' e, In (w', e) new -> (exists i, e = EMkdir i) \/ e = EIgnored) -> lastev (P ++ new) w q = lastev P w q.
Proof.
  intros N. rewrite lastev_app. assert (Z : lastev new w q = None).
  { apply lastev_none. intros [w' e] I. unfold says. cbn [fst snd]. destruct (w' =? w); [|reflexivity].
    destruct (N _ _ I) as [(i & ->)| ->]; reflexivity. }
  rewrite Z. reflexivity.
Qed.

Lemma lastev_fresh P k c F q w : Wf P k c F -> nxt k <= w -> lastev P w q = None.
Proof.
  intros W L. apply lastev_none. intros [w' e] I. apply (wf_pend _ _ _ _ W) in I. unfold says. cbn [fst].
  destruct (w' =? w) eqn:Q; [apply Nat.eqb_eq in Q; lia|reflexivity].
Qed.

(** Directories created and watches added. *)
Lemma con_mk P k c F im k' new :
  Wf P k c F -> kmore k k' new -> (forall w e, In (w, e) new -> exists i, e = EMkdir i) -> files k' = files k ->
  Con P k c im -> Con (P ++ new) k' c im.
Proof.
  intros W M N FE C.
  assert (LE : forall w q, lastev (P ++ new) w q = lastev P w q).
  { intros w q. apply lastev_mk. intros w' e I. left. apply (N w' e I). }
  constructor.
  - intros i w q b K L. rewrite LE in L. rewrite FE. destruct (km_back _ _ _ M _ _ K) as [K'|(_ & A & _)].
    + apply (k_last _ _ _ _ C i w q b K' L).
    + rewrite (lastev_fresh P k c F q w W) in L by lia. discriminate.
  - intros i w x q X D L. rewrite LE in L. rewrite FE. apply (c_same _ _ _ _ C i w x q X D L).
  - intros h x i S A FI. destruct (r_told _ _ _ _ C h x i S A FI) as [R|R]; [auto|]. right.
    apply (due_mono P _ c _ im _ _ _ _ R); auto.
    + intros w y Y HY. exists y. auto.
    + intros w y _ _ _ L. left. rewrite LE. exact L.
    + intros w y _ _ _ L. left. apply in_or_app. auto.
  - apply (r_match _ _ _ _ C).
Qed.

Lemma lastev_emit P k i q v w' q' :
  lastev (P ++ emit k (Some i) (if v : bool then ECreate q else EDelete q)) w' q' =
  if match kwd k (Some i) with Some w => (w =? w') && Bool.eqb q' q | None => false end then Some v else lastev P w' q'.
Proof.
  rewrite lastev_app. unfold emit. destruct (kwd k (Some i)) as [w|]; cbn [lastev]; [|reflexivity].
  unfold says. cbn [fst snd]. destruct (w =? w'); cbn; [|reflexivity].
  destruct v; destruct (Bool.eqb q' q); reflexivity.
Qed.

(** A flag file created or removed. *)
Lemma con_file P k c F im k' i q v :
  Wf P k c F -> kwd k' = kwd k ->
  (forall p, p <> (i, q) -> (In p (files k') <-> In p (files k))) -> (In (i, q) (files k') <-> v = true) ->
  Con P k c im -> Con (P ++ emit k (Some i) (if v : bool then ECreate q else EDelete q)) k' c im.
Proof.
  intros W KE FO FI C.
  assert (KEY : forall i' w' q', kwd k (Some i') = Some w' ->
     match kwd k (Some i) with Some w => (w =? w') && Bool.eqb q' q | None => false end = true <-> (i', q') = (i, q)).
  { intros i' w' q' K. split.
    - intros E. destruct (kwd k (Some i)) as [w|] eqn:KW; [|discriminate]. apply andb_prop in E. destruct E as [E1 E2].
      apply Nat.eqb_eq in E1. apply Bool.eqb_prop in E2. subst w' q'. pose proof (wf_inj _ _ _ _ W _ _ w K KW) as Z. congruence.
    - intros E. injection E as -> ->. rewrite K, Nat.eqb_refl, Bool.eqb_reflx. reflexivity. }
  assert (KEY' : forall i' w' q', kwd k (Some i') = Some w' ->
     match kwd k (Some i) with Some w => (w =? w') && Bool.eqb q' q | None => false end = false -> (i', q') <> (i, q)).
  { intros i' w' q' K E Z. apply (KEY i' w' q' K) in Z. congruence. }
  constructor.
  - intros i' w' q' b K L. rewrite KE in K. rewrite lastev_emit in L.
    destruct (match kwd k (Some i) with Some w => (w =? w') && Bool.eqb q' q | None => false end) eqn:B.
    + injection L as <-. apply (KEY i' w' q' K) in B. rewrite B. rewrite FI. reflexivity.
    + rewrite (FO _ (KEY' i' w' q' K B)). apply (k_last _ _ _ _ C i' w' q' b K L).
  - intros i' w' x q' X D L. rewrite lastev_emit in L. pose proof (wf_kwd _ _ _ _ W w' x X) as K. rewrite D in K.
    destruct (match kwd k (Some i) with Some w => (w =? w') && Bool.eqb q' q | None => false end) eqn:B; [discriminate|].
    rewrite (FO _ (KEY' i' w' q' K B)). apply (c_same _ _ _ _ C i' w' x q' X D L).
  - intros h x i' S A FF. destruct (r_told _ _ _ _ C h x i' S A FF) as [R|R]; [auto|]. right.
    apply (due_mono P _ c _ im _ _ _ _ R); auto.
    + intros w y Y HY. exists y. auto.
    + intros w y _ _ _ L. left. rewrite lastev_emit.
      destruct (match kwd k (Some i) with Some w0 => (w0 =? w) && Bool.eqb (s_q x) q | None => false end); [discriminate|exact L].
    + intros w y _ _ _ L. left. apply in_or_app. auto.
  - apply (r_match _ _ _ _ C).
Qed.

Lemma conx_file P k c F k' i q v x :
  Wf P k c F -> kwd k' = kwd k ->
  (forall p, p <> (i, q) -> (In p (files k') <-> In p (files k))) ->
  ConX P k x -> ConX (P ++ emit k (Some i) (if v : bool then ECreate q else EDelete q)) k' x.
Proof.
  intros W KE FO C t i' q' PH I w' K L. pose proof (C t i' q' PH I) as A. rewrite KE in K. rewrite lastev_emit in L.
  destruct (match kwd k (Some i) with Some w => (w =? w') && Bool.eqb q' q | None => false end) eqn:B; [discriminate|].
  assert (NE : (i', q') <> (i, q)); [|rewrite (FO _ NE); apply (A w' K L)]. intros E. injection E as -> ->. rewrite K, Nat.eqb_refl, Bool.eqb_reflx in B. discriminate.
Qed.

Lemma conx_mk P k c k' new us im x :
  Wx P k c us im x -> kmore k k' new -> (forall w e, In (w, e) new -> exists i, e = EMkdir i) -> files k' = files k ->
  ConX P k x -> ConX (P ++ new) k' x.
Proof.
  intros X M N FE C t i q PH I w K L. pose proof (C t i q PH I) as A.
  destruct (x_every _ _ _ _ _ _ t X PH i I) as (w0 & _ & K0). pose proof (km_kwd _ _ _ M _ _ K0) as K1.
  assert (w0 = w) by congruence. subst w0. rewrite lastev_mk in L by (intros w' e Z; left; apply (N w' e Z)). rewrite FE. apply (A w K0 L).
Qed.

(** ** A crawl that ends *)

Lemma con_grown P k c F c0 N c' found im :
  Wf P k c F -> Con P k c im ->
  watches c0 = watches c -> known c0 = known c -> obsolete c0 = obsolete c ->
  (forall h s, searches c0 h = Some s -> searches c h = Some s \/
     (forall i, fits (s_dir s) i -> (In i (s_prev s) <-> In (i, s_q s) found \/ In (i, s_q s) (known c)) \/ due P c' im h s i) /\
     (forall i, In i (s_prev s) -> fits (s_dir s) i)) ->
  grown c0 N c' ->
  (forall w x' i q, watches c' w = Some x' -> w_dir x' = Some i -> lastev P w q = None ->
     (In (i, q) found \/ In (i, q) (known c) <-> In (i, q) (files k))) ->
  (forall i q w x, In (i, q) found -> ~ In (i, q) (known c) -> watches c w = Some x -> w_dir x = Some i -> lastev P w q <> None) ->
  (forall w x h i, fnd F w i -> watches c w = Some x -> In h (w_hs x) -> In h im) ->
  (forall i q, In (i, q) found -> In i (dirs k)) ->
  Con P k (set_known c' (merge found (known c'))) im.
Proof.
  intros W C EW EK EO SN G H1 H2 H3 H4.
  assert (KN : forall p, In p (merge found (known c')) <-> In p found \/ In p (known c)).
  { intros p. rewrite In_merge, (g_known _ _ _ G), EK. reflexivity. }
  assert (KEEP : forall h w x, watches c w = Some x -> In h (w_hs x) -> exists x', watches c' w = Some x' /\ w_dir x' = w_dir x /\ In h (w_hs x')).
  { intros h w x X I. assert (X0 : watches c0 w = Some x) by (rewrite EW; exact X).
    destruct (g_kept _ _ _ G w x X0) as (x2 & X2 & D2 & Z2). exists x2. split; [exact X2|]. split; [exact D2|]. apply Z2. auto. }
  assert (SOLD : forall h s', searches c' h = Some s' -> exists s, searches c0 h = Some s /\
             s_dir s' = s_dir s /\ s_q s' = s_q s /\ s_prev s' = s_prev s).
  { intros h s' S'. destruct (searches c0 h) as [s|] eqn:S.
    - destruct (g_some _ _ _ G h s S) as (s2 & A1 & A2 & A3 & A4 & _). assert (s2 = s') by congruence. subst s2.
      exists s. auto.
    - rewrite (g_none _ _ _ G h S) in S'. discriminate. }
  constructor.
  - apply (k_last _ _ _ _ C).
  - intros i w x q X D L. cbn [known set_known]. rewrite KN. apply (H1 w x i q X D L).
  - intros h s' i S' A FI. cbn in A. rewrite (g_obs _ _ _ G), EO in A. destruct (SOLD h s' S') as (s & S & E1 & E2 & E3).
    rewrite E1 in FI. rewrite E2, E3. cbn [known set_known]. rewrite KN.
    assert (DD : forall s2, s_dir s2 = s_dir s -> s_q s2 = s_q s -> due P c' im h s i -> due P (set_known c' (merge found (known c'))) im h s2 i).
    { intros s2 Z1 Z2 D. apply (due_same _ _ _ _ s); [exact Z1|exact Z2|]. apply (due_mono P P c' _ im im _ _ _ D); auto.
      intros w y Y HY. exists y. auto. }
    destruct (SN h s S) as [S0|[S0 _]].
    2:{ destruct (S0 i FI) as [Z|Z]; [left; exact Z|]. right. apply DD; auto. }
    destruct (r_told _ _ _ _ C h s i S0 A FI) as [R|R].
    2:{ right. apply DD; auto. apply (due_mono P P c c' im im _ _ _ R); auto. }
    destruct (has (i, s_q s) (known c)) eqn:K; [apply has_In in K; left; tauto|apply has_false in K].
    destruct (has (i, s_q s) found) eqn:Q; [apply has_In in Q|apply has_false in Q; left; tauto].
    right. apply DD; auto.
    destruct (linked P k c F h s i W S0 FI (H4 i _ Q)) as [(w & y & Y1 & Y2 & Y3)|(D & w & y & Y1 & Y2 & Y3 & [Z|Z])].
    + destruct (KEEP h w y Y1 Y3) as (y' & A1 & A2 & A3). apply (due_event _ _ _ _ _ _ w y'); [exact A1|congruence|exact A3|].
      apply (H2 i (s_q s) w y Q K Y1 Y2).
    + destruct (KEEP h w y Y1 Y3) as (y' & A1 & A2 & A3). apply (due_mkdir _ _ _ _ _ _ w y'); [exact D|exact A1|congruence|exact A3|exact Z].
    + apply due_imp. apply (H3 w y h i Z Y1 Y3).
  - intros h s' i S' I. destruct (SOLD h s' S') as (s & S & E1 & E2 & E3). rewrite E1. rewrite E3 in I.
    destruct (SN h s S) as [S0|[_ S0]]; [apply (r_match _ _ _ _ C h s i S0 I)|apply S0; exact I].
Qed.

Lemma con_call P k c im h l : Con P k c im -> Con P k (call c h l) im.
Proof.
  intros C. constructor.
  - apply (k_last _ _ _ _ C).
  - apply (c_same _ _ _ _ C).
  - intros h' x i S A FI. destruct (r_told _ _ _ _ C h' x i S A FI) as [R|R]; [auto|]. right.
    apply (due_mono P P c _ im im _ _ _ R); auto. intros w y Y HY. exists y. auto.
  - apply (r_match _ _ _ _ C).
Qed.

Lemma con_told P k c im h (hs l : list inst) : Con P k c im -> Con P k (match hs with [] => c | _ => call c h l end) im.
Proof. intros C. destruct hs; [exact C|apply con_call; exact C]. Qed.

(** What a finished crawl found, against what was known. *)
Lemma found_same P k c F us im x i q w :
  Wf P k c F -> Con P k c im -> Wx P k c us im x -> ConX P k x -> c_phase x = PCheck [] -> In i (c_insts x) ->
  kwd k (Some i) = Some w -> lastev P w q = None ->
  (In (i, q) (c_found x) <-> In (i, q) (files k)) /\ (In (i, q) (known c) -> In (i, q) (files k)).
Proof.
  intros W C X CX PH I K L. destruct (CX [] i q PH I w K L) as [A B]. split.
  { split; [exact A|]. intros Z. destruct (B Z) as [[]|Q]. exact Q. }
  intros Z. destruct (wf_known _ _ _ _ W i q Z) as (w' & y & Y & D).
  assert (w' = w) by (pose proof (wf_kwd _ _ _ _ W w' y Y) as Q; rewrite D in Q; congruence). subst w'.
  apply (c_same _ _ _ _ C i w y q Y D L). exact Z.
Qed.

Lemma inv2_fs s l s' : Inv s -> Inv2 s -> step s l = Some s' ->
  match l with FsMkdir _ | FsCreate _ _ | FsDelete _ _ => True | _ => False end -> Inv2 s'.
Proof.
  intros I J S L. unfold step in S. rewrite (i_dead _ I) in S. pose proof (i_wf _ I) as W. pose proof (j_con _ J) as C.
  assert (FLIP : forall k b, wrk (set_ker s k) = WGot b -> no_flip b = true) by (intros k; apply (j_flip _ J)).
  assert (PE : forall k new, queue k = queue (ker s) ++ new -> pend (set_ker s k) = pend s ++ new).
  { intros k new E. unfold pend. cbn. rewrite E, app_assoc. reflexivity. }
  destruct l as [i|i q|i q| | | | | | | | |]; try contradiction.
  - injection S as <-. destruct (kmore_mkdir _ _ _ _ i W) as (new & M & N). destruct (mkdir_frame (ker s) i) as [F1 F2].
    assert (N' : forall w e, In (w, e) new -> exists i, e = EMkdir i) by (intros w e Z; exists i; apply (N w e Z)).
    pose proof (PE _ _ (km_queue _ _ _ M)) as E. constructor.
    + rewrite E. apply (con_mk _ _ _ _ _ _ _ W M N' F1 C).
    + intros x X. rewrite E. apply (conx_mk _ _ _ _ _ _ _ _ (i_crw _ I x X) M N' F1 (j_crw _ J x X)).
    + apply FLIP.
  - destruct (mem i (dirs (ker s))) eqn:D; [|discriminate]. destruct (has (i, q) (files (ker s))) eqn:HF; [discriminate|]. cbn in S.
    injection S as <-.
    assert (FO : forall p, p <> (i, q) -> (In p (files (create (ker s) i q)) <-> In p (files (ker s)))).
    { intros p NP. unfold create. cbn [files In]. split; [intros [E|Z]; [congruence|exact Z]|auto]. }
    assert (FI : In (i, q) (files (create (ker s) i q)) <-> true = true) by (unfold create; cbn [files In]; tauto).
    assert (E : pend (set_ker s (create (ker s) i q)) = pend s ++ emit (ker s) (Some i) (ECreate q)) by (apply PE; reflexivity).
    constructor.
    + rewrite E. apply (con_file _ _ _ _ _ (create (ker s) i q) i q true W eq_refl FO FI C).
    + intros x X. rewrite E. apply (conx_file _ _ _ _ (create (ker s) i q) i q true x W eq_refl FO (j_crw _ J x X)).
    + apply FLIP.
  - destruct (has (i, q) (files (ker s))) eqn:HF; [|discriminate]. injection S as <-.
    assert (RE : files (delete (ker s) i q) = remove (i, q) (files (ker s))) by reflexivity.
    assert (FO : forall p, p <> (i, q) -> (In p (files (delete (ker s) i q)) <-> In p (files (ker s)))).
    { intros p NP. rewrite RE, In_remove. tauto. }
    assert (FI : In (i, q) (files (delete (ker s) i q)) <-> false = true).
    { rewrite RE, In_remove. split; [tauto|discriminate]. }
    assert (E : pend (set_ker s (delete (ker s) i q)) = pend s ++ emit (ker s) (Some i) (EDelete q)) by (apply PE; reflexivity).
    constructor.
    + rewrite E. apply (con_file _ _ _ _ _ (delete (ker s) i q) i q false W eq_refl FO FI C).
    + intros x X. rewrite E. apply (conx_file _ _ _ _ (delete (ker s) i q) i q false x W eq_refl FO (j_crw _ J x X)).
    + apply FLIP.
Qed.

Lemma inv2_start s h d q s' : Inv s -> Inv2 s -> step s (StartFind h d q) = Some s' -> Inv2 s'.
Proof.
  intros I J S. unfold step in S. rewrite (i_dead _ I) in S.
  destruct (may_enter s) eqn:ME; [|discriminate]. destruct (mem h (used s)) eqn:MU; [discriminate|]. cbn [andb negb] in S.
  assert (CN : crw s = None) by (unfold may_enter in ME; destruct (crw s); [discriminate|reflexivity]).
  apply mem_false in MU.
  assert (SN : searches (cl s) h = None).
  { destruct (searches (cl s) h) eqn:Z; [|reflexivity]. exfalso. apply MU. apply (i_used _ I _ _ Z). }
  pose proof (i_wf _ I) as W. rewrite CN in W. pose proof (j_con _ J) as C.
  assert (CR : forall s1, Some (set_crw (mkSt (ker s) (cl s) (wrk s) (crw s) (h :: used s) false) (Some (mkCr (Start h d q) PMain [] [] []))) = Some s1 -> Inv2 s1).
  { intros s1 E. injection E as <-. constructor.
    - exact C.
    - intros x X. injection X as <-. intros t i q' E. discriminate.
    - apply (j_flip _ J). }
  destruct (watched (cl s) d) as [[[w|] ch]|] eqn:T; [|apply CR; exact S|apply CR; exact S]. clear CR.
  destruct (cached_links _ _ _ _ _ _ W T) as (ws & E & A & B & K). rewrite E in S.
  destruct (transfer_new_spec _ _ _ _ h d q ws [] (handles (known (cl s)) d q) W) as (c1 & G & W' & TN).
  { apply no_fnd_none. }
  { exact SN. }
  { intros w' d' Z. apply (A w' d' Z). }
  { exists w. exact B. }
  { exact K. }
  { intros i q' []. }
  rewrite TN in S. injection S as <-. constructor.
  - cbn. apply con_told. refine (con_grown _ _ _ _ (set_search (cl s) h (Some (mkS d q [] (handles (known (cl s)) d q)))) _ c1 [] _ W C eq_refl eq_refl eq_refl _ G _ _ _ _).
    + intros h' s' S'. cbn in S'. destruct (h =? h') eqn:Q; [|auto]. injection S' as <-. right. cbn. split.
      * intros i FI. left. rewrite In_handles. split; [tauto|]. intros [[]|Z]. auto.
      * intros i Z. apply In_handles in Z. apply Z.
    + intros w' x' i q' X' D' L. destruct (watches (cl s) w') as [x|] eqn:X.
      * destruct (g_kept _ _ _ G w' x X) as (x2 & X2 & D2 & _). assert (x2 = x') by congruence. subst x2. cbn [In].
        rewrite <- (c_same _ _ _ _ C i w' x q' X); [tauto|congruence|exact L].
      * exfalso. destruct (g_new _ _ _ G w' x' X X') as (d' & _ & (h' & _ & Z) & _). destruct (A w' d' Z) as (_ & y & Y & _). congruence.
    + intros i q' w' x [].
    + intros w' x h' i Z. exfalso. apply (no_fnd_none _ _ Z).
    + intros i q' [].
  - intros x X. cbn in X. congruence.
  - apply (j_flip _ J).
Qed.

Lemma inv2_crawl s s' : Inv s -> Inv2 s -> step s CrawlStep = Some s' -> Inv2 s'.
Proof.
  intros I J S. unfold step in S. rewrite (i_dead _ I) in S. destruct (crw s) as [x|] eqn:CX; [|discriminate].
  injection S as <-. pose proof (i_wf _ I) as W. rewrite CX in W. pose proof (i_crw _ I x CX) as X.
  pose proof (j_con _ J) as C. pose proof (j_crw _ J x CX) as Y.
  destruct x as [wh ph ws is fo]. unfold crawl_step. cbn [c_phase c_who c_wds c_insts c_found].
  assert (PE : forall k new x, queue k = queue (ker s) ++ new -> pend (set_crw (set_ker s k) x) = pend s ++ new).
  { intros k new x E. unfold pend. cbn. rewrite E, app_assoc. reflexivity. }
  assert (SAME : forall x', (forall t, c_phase x' <> PCheck t) \/ ConX (pend s) (ker s) x' -> Inv2 (set_crw s (Some x'))).
  { intros x' H. constructor.
    - exact C.
    - intros x E. injection E as <-. destruct H as [H|H]; [|exact H]. intros t i q P. exfalso. apply (H t P).
    - apply (j_flip _ J). }
  destruct ph as [| |[|i r]|[|p r]].
  - destruct (add_watch (ker s) (crawl_dir wh)) as [k w] eqn:AW.
    destruct (add_watch_spec _ _ _ _ _ _ _ W AW) as ((new & M & MN) & K1 & K2 & K3 & K4 & K5).
    destruct (crawl_dir wh) as [i|] eqn:CD.
    + constructor.
      * rewrite (PE _ _ _ (km_queue _ _ _ M)). apply (con_mk _ _ _ _ _ _ _ W M MN K2 C).
      * intros x E. injection E as <-. intros t j q P Z w' _ _. cbn in P, Z. injection P as <-. cbn [c_found]. split; [intros []|]. intros _. left. apply In_pairs. exact Z.
      * apply (j_flip _ J).
    + constructor.
      * rewrite (PE _ _ _ (km_queue _ _ _ M)). apply (con_mk _ _ _ _ _ _ _ W M MN K2 C).
      * intros x E. injection E as <-. intros t j q P Z. discriminate.
      * apply (j_flip _ J).
  - apply SAME. left. discriminate.
  - apply SAME. right. intros t j q P Z w' _ _. cbn in P, Z. injection P as <-. cbn [c_found]. split; [intros []|]. intros _. left. apply In_pairs. exact Z.
  - destruct (add_watch (ker s) (Some i)) as [k w] eqn:AW.
    destruct (add_watch_spec _ _ _ _ _ _ _ W AW) as ((new & M & MN) & K1 & K2 & K3 & K4 & K5).
    constructor.
    + rewrite (PE _ _ _ (km_queue _ _ _ M)). apply (con_mk _ _ _ _ _ _ _ W M MN K2 C).
    + intros x E. injection E as <-. intros t j q P Z. discriminate.
    + apply (j_flip _ J).
  - unfold finish_crawl. cbn [c_who c_wds c_found]. pose proof (x_who _ _ _ _ _ _ X) as XW. cbn [c_who] in XW.
    pose proof (x_every _ _ _ _ _ _ [] X eq_refl) as XE. cbn [c_insts c_wds] in XE.
    assert (FS : forall i q w, In i is -> kwd (ker s) (Some i) = Some w -> lastev (pend s) w q = None ->
              (In (i, q) fo <-> In (i, q) (files (ker s))) /\ (In (i, q) (known (cl s)) -> In (i, q) (files (ker s)))).
    { intros i q w Z K L. apply (found_same _ _ _ _ _ _ _ i q w W C X Y eq_refl Z K L). }
    assert (FI : forall i q, In (i, q) fo -> In i is) by (apply (x_found _ _ _ _ _ _ X)).
    assert (H2 : forall i q w x, In (i, q) fo -> ~ In (i, q) (known (cl s)) -> watches (cl s) w = Some x -> w_dir x = Some i -> lastev (pend s) w q <> None).
    { intros i q w x A B X1 D L. apply B. apply (c_same _ _ _ _ C i w x q X1 D L).
      refine (proj1 (proj1 (FS i q w (FI i q A) _ L)) A). rewrite <- D. apply (wf_kwd _ _ _ _ W w x X1). }
    assert (H4 : forall i q, In (i, q) fo -> In i (dirs (ker s))).
    { intros i q Z. apply (x_dirs _ _ _ _ _ _ X). apply (FI i q Z). }
    assert (H1 : forall c' c0 N, watches c0 = watches (cl s) -> grown c0 N c' -> (forall w i h, N w (Some i) h -> In i is) ->
              (forall w d h, N w d h -> kwd (ker s) d = Some w) ->
              forall w x' i q, watches c' w = Some x' -> w_dir x' = Some i -> lastev (pend s) w q = None ->
               (In (i, q) fo \/ In (i, q) (known (cl s)) <-> In (i, q) (files (ker s)))).
    { intros c' c0 N EW G NI NK w x' i q X' D' L.
      destruct (watches (cl s) w) as [x|] eqn:X1.
      - assert (X0 : watches c0 w = Some x) by (rewrite EW; exact X1).
        destruct (g_kept _ _ _ G w x X0) as (x2 & X2 & D2 & _). assert (x2 = x') by congruence. subst x2.
        assert (D : w_dir x = Some i) by congruence. rewrite (c_same _ _ _ _ C i w x q X1 D L).
        split; [|auto]. intros [Z|Z]; [|exact Z].
        refine (proj1 (proj1 (FS i q w (FI i q Z) _ L)) Z). rewrite <- D. apply (wf_kwd _ _ _ _ W w x X1).
      - assert (X0 : watches c0 w = None) by (rewrite EW; exact X1).
        destruct (g_new _ _ _ G w x' X0 X') as (d & D2 & (h & H) & _). assert (DE : d = Some i) by congruence. rewrite DE in H.
        destruct (FS i q w (NI w i h H) (NK w _ h H) L) as [A B]. tauto. }
    destruct wh as [h d q|w0 i].
    + destruct XW as [HU SN].
      destruct (transfer_new_spec _ _ _ _ h d q ws fo (handles fo d q) W) as (c1 & G & W' & TN).
      { apply (no_fnd_start _ h d q). reflexivity. }
      { exact SN. }
      { apply (x_wds _ _ _ _ _ _ X). }
      { apply (x_main _ _ _ _ _ _ X). discriminate. }
      { intros w i Z DI. pose proof (x_none _ _ _ _ _ _ X w Z) as CD.
        destruct (x_list _ _ _ _ _ _ X CD) as (A & B). destruct (A i DI) as [Q|Q]; [left; apply B; exact Q|].
        right. apply Q. apply (x_wds _ _ _ _ _ _ X w None Z). }
      { intros i q' Z. destruct (XE i) as (w & A & _); [apply (FI i q' Z)|exists w; exact A]. }
      rewrite TN. constructor; [|discriminate|apply (j_flip _ J)].
      cbn. apply con_told.
      refine (con_grown _ _ _ _ (set_search (cl s) h (Some (mkS d q [] (handles fo d q)))) _ c1 fo _ W C eq_refl eq_refl eq_refl _ G (H1 c1 _ _ _ G _ _) H2 _ H4).
      * intros h' s' S'. cbn in S'. destruct (h =? h') eqn:Q; [|auto]. injection S' as <-. right. cbn. split.
        2:{ intros i Z. apply In_handles in Z. apply Z. }
        apply Nat.eqb_eq in Q. subst h'.
        intros i FT. rewrite In_handles.
        destruct (has (i, q) fo) eqn:HF; [apply has_In in HF; left; tauto|apply has_false in HF].
        destruct (has (i, q) (known (cl s))) eqn:HK; [apply has_In in HK|apply has_false in HK; left; tauto].
        right. destruct (wf_known _ _ _ _ W i q HK) as (w & y & Y1 & D1).
        assert (DI : In i (dirs (ker s))) by (apply (stored_dirs _ _ _ _ w y i W Y1 D1)).
        destruct (in_dec Nat.eq_dec i is) as [II|NI].
        -- destruct (XE i II) as (w' & A1 & A2). assert (w' = w) by (pose proof (wf_kwd _ _ _ _ W w y Y1) as Z; rewrite D1 in Z; congruence). subst w'.
           destruct (g_kept _ _ _ G w y Y1) as (y' & Y2 & D2 & Z2).
           apply (due_event _ _ _ _ _ _ w y'); [exact Y2|congruence| |].
           ++ apply Z2. right. exists (Some i). split; [reflexivity|exact A1].
           ++ cbn. intros L. apply HF. destruct (FS i q w II A2 L) as [B1 B2]. apply B1, B2, HK.
        -- assert (d = None).
           { destruct FT as [Z|Z]; [exact Z|]. cbn in Z. exfalso. apply NI.
             destruct (x_one _ _ _ _ _ _ X i) as (_ & B & _); [discriminate|exact Z|]. cbn in B. rewrite B. left. reflexivity. }
           subst d. destruct (x_list _ _ _ _ _ _ X eq_refl) as (A & _). destruct (A i DI) as [Q|Q]; [contradiction|].
           destruct (x_main _ _ _ _ _ _ X) as (wm & WM); [discriminate|]. cbn in WM.
           destruct (g_there _ _ _ G wm None h) as (ym & YM); [split; [reflexivity|exact WM]|].
           pose proof (wf_kwd _ _ _ _ W' wm ym YM) as KM. pose proof (x_wds _ _ _ _ _ _ X wm None WM) as KN.
           apply (due_mkdir _ _ _ _ _ _ wm ym); [reflexivity|exact YM| | |].
           ++ apply (wf_inj _ _ _ _ W _ _ wm KM KN).
           ++ destruct (watches (cl s) wm) as [y0|] eqn:Y0.
              ** destruct (g_kept _ _ _ G wm y0 Y0) as (y2 & Y2 & _ & Z2). assert (y2 = ym) by congruence. subst y2.
                 apply Z2. right. exists None. split; [reflexivity|exact WM].
              ** destruct (g_new _ _ _ G wm ym Y0 YM) as (d' & _ & _ & Z2). apply Z2. exists None. split; [reflexivity|exact WM].
           ++ apply Q. exact KN.
      * reflexivity.
      * intros w i h' (_ & Z). apply (x_inst _ _ _ _ _ _ X w i Z).
      * intros w d' h' (_ & Z). apply (x_wds _ _ _ _ _ _ X w d' Z).
      * intros w y h' i Z. exfalso. apply (no_fnd_start (mkCr (Start h d q) (PCheck []) ws is fo) h d q eq_refl w i Z).
    + destruct XW as (DI & x0 & X0 & D0 & H0). destruct (x_one _ _ _ _ _ _ X i) as ((w & WE) & IE & _); [discriminate|reflexivity|].
      cbn [c_wds] in WE. cbn [c_insts] in IE. subst ws is. rewrite X0.
      pose proof (x_wds _ _ _ _ _ _ X w (Some i) (or_introl eq_refl)) as KW.
      destruct (found_grown _ _ _ _ w0 x0 i w W X0 KW) as (c' & E & G). rewrite E.
      constructor; [|discriminate|apply (j_flip _ J)].
      cbn. refine (con_grown _ _ _ _ (cl s) _ c' fo _ W C eq_refl eq_refl eq_refl _ G (H1 c' _ _ _ G _ _) H2 _ H4).
      * auto.
      * reflexivity.
      * intros w' j h (_ & Z & _). injection Z as ->. left. reflexivity.
      * intros w' d h (-> & -> & _). exact KW.
      * intros w' y h j (z & Z1 & Z2) Y1 HH. injection Z1 as <-. cbn in Z2. injection Z2 as <- <-.
        assert (y = x0) by congruence. subst y. apply H0. exact HH.
  - apply SAME. right. intros t i q P Z w K L. cbn in P, Z. injection P as <-. cbn [c_found].
    destruct (Y (p :: r) i q eq_refl Z w K L) as [A B]. cbn [c_found] in A, B.
    destruct (has p (files (ker s))) eqn:HF.
    + apply has_In in HF. rewrite In_insert. split; [intros [->|Q]; [exact HF|apply A; exact Q]|].
      intros Q. destruct (B Q) as [[->|T]|T]; auto.
    + apply has_false in HF. split; [exact A|]. intros Q. destruct (B Q) as [[->|T]|T]; auto. contradiction.
Qed.

(** ** One event handled *)

Lemma lastev_cons x P w q : lastev (x :: P) w q = match lastev P w q with Some b => Some b | None => says w q x end.
Proof. reflexivity. Qed.

Lemma says_other w e w' q : w' <> w -> says w' q (w, e) = None.
Proof. intros N. unfold says. cbn [fst]. destruct (w =? w') eqn:Q; [apply Nat.eqb_eq in Q; congruence|reflexivity]. Qed.

Lemma con_drop k c c' im im' w e P :
  Wf ((w, e) :: P) k c None -> Con ((w, e) :: P) k c im ->
  searches c' = searches c -> watches c' = watches c -> obsolete c' = obsolete c ->
  (forall x i q v, watches c w = Some x -> w_dir x = Some i -> says w q (w, e) = Some v ->
     (In (i, q) (known c') <-> v = true) /\ forall h, In h (w_hs x) -> In h im') ->
  (forall i q, (In (i, q) (known c') <-> In (i, q) (known c)) \/
     exists x v, watches c w = Some x /\ w_dir x = Some i /\ says w q (w, e) = Some v) ->
  (forall h, In h im -> In h im') ->
  (forall x i h, watches c w = Some x -> w_dir x = None -> e = EMkdir i -> In h (w_hs x) -> In h im') ->
  Con P k c' im'.
Proof.
  intros W C ES EW EO D1 D2 D3 D4. constructor.
  - intros i w' q b K L. apply (k_last _ _ _ _ C i w' q b K). rewrite lastev_cons, L. reflexivity.
  - intros i w' x q X D L. rewrite EW in X.
    assert (KEY : (In (i, q) (known c') <-> In (i, q) (known c)) /\ says w' q (w, e) = None \/
                  w' = w /\ exists v, says w q (w, e) = Some v).
    { destruct (Nat.eq_dec w' w) as [->|N].
      - destruct (says w q (w, e)) as [v|] eqn:SY; [right; split; [reflexivity|exists v; reflexivity]|left; split; [|reflexivity]].
        destruct (D2 i q) as [Z|(y & v & Y & DY & Z)]; [exact Z|congruence].
      - left. split; [|apply says_other; exact N]. destruct (D2 i q) as [Z|(y & v & Y & DY & Z)]; [exact Z|].
        exfalso. apply N. apply (stored_unique _ _ _ _ w' w x y W X Y). congruence. }
    destruct KEY as [[Z1 Z2]|(-> & v & Z)].
    + rewrite Z1. apply (c_same _ _ _ _ C i w' x q X D). rewrite lastev_cons, L. exact Z2.
    + destruct (D1 x i q v X D Z) as [A _]. rewrite A. apply (k_last _ _ _ _ C i w q v).
      * rewrite <- D. apply (wf_kwd _ _ _ _ W w x X).
      * rewrite lastev_cons, L. exact Z.
  - intros h x i S A FI. rewrite ES in S. rewrite EO in A.
    destruct (r_told _ _ _ _ C h x i S A FI) as [R|R].
    + destruct (D2 i (s_q x)) as [Z|(y & v & Y & DY & SY)]; [left; tauto|]. right.
      assert (DI : In i (dirs k)) by (apply (stored_dirs _ _ _ _ w y i W Y DY)).
      destruct (linked _ _ _ _ h x i W S FI DI) as [(w1 & y1 & Y1 & Y2 & Y3)|(DN & w1 & y1 & Y1 & Y2 & Y3 & [Z|Z])].
      * assert (w1 = w) by (apply (stored_unique _ _ _ _ w1 w y1 y W Y1 Y); congruence). subst w1.
        apply due_imp. destruct (D1 y1 i _ v Y1 Y2 SY) as [_ B]. apply B. exact Y3.
      * destruct Z as [Z|Z].
        -- injection Z as <- ->. apply due_imp. apply (D4 y1 i h Y1 Y2 eq_refl Y3).
        -- apply (due_mkdir _ _ _ _ _ _ w1 y1); auto. rewrite EW. exact Y1.
      * exfalso. apply (no_fnd_none _ _ Z).
    + right. apply (due_mono _ _ _ _ _ _ _ _ _ R).
      * intros w1 y Y HY. exists y. rewrite EW. auto.
      * intros w1 y Y DY HY L. rewrite lastev_cons in L. destruct (lastev P w1 (s_q x)) as [b|] eqn:LP; [left; discriminate|].
        right. destruct (Nat.eq_dec w1 w) as [->|N]; [|rewrite says_other in L by exact N; congruence].
        destruct (says w (s_q x) (w, e)) as [v|] eqn:SY; [|congruence]. destruct (D1 y i _ v Y DY SY) as [_ B]. apply B. exact HY.
      * apply D3.
      * intros w1 y Y DY HY [Z|Z]; [|auto]. injection Z as -> ->. right. apply (D4 y i h Y DY eq_refl HY).
  - rewrite ES. apply (r_match _ _ _ _ C).
Qed.

Lemma lastev_ign P k c k' c' H ign w q : shrunk H k c k' c' ign -> lastev (P ++ ign) w q = lastev P w q.
Proof.
  intros SH. apply lastev_mk. intros w' e I. right. apply (sh_ign _ _ _ _ _ _ SH w' e I).
Qed.

(** The searches that were stopped go. *)
Lemma con_shrunk P P' k c k' c' hs ign :
  Wf P k c None -> Con P k c [] -> shrunk (fun h => In h hs) k c k' c' ign -> hs = obsolete c ->
  (forall w q, lastev P' w q = lastev P w q) -> (forall w i, In (w, EMkdir i) P -> In (w, EMkdir i) P') ->
  Con P' k' (set_obsolete c' []) [].
Proof.
  intros W C SH -> LE MK. constructor.
  - intros i w q b K L. rewrite LE in L. rewrite (sh_files _ _ _ _ _ _ SH). apply (k_last _ _ _ _ C i w q b); [|exact L].
    apply (sh_kwd _ _ _ _ _ _ SH). exact K.
  - intros i w x' q X' D' L. rewrite LE in L. rewrite (sh_files _ _ _ _ _ _ SH). cbn [known set_obsolete].
    cbn in X'. destruct (sh_old _ _ _ _ _ _ SH w x' X') as (x & X & D & _).
    rewrite (sh_known _ _ _ _ _ _ SH). rewrite <- (c_same _ _ _ _ C i w x q X); [|congruence|exact L].
    split; [tauto|]. intros Z. split; [exact Z|]. exists w, x'. auto.
  - intros h x i S _ FI. cbn in S. cbn [known set_obsolete].
    assert (NO : ~ In h (obsolete c)).
    { intros Z. rewrite (sh_gone _ _ _ _ _ _ SH h Z) in S. discriminate. }
    rewrite (sh_stay _ _ _ _ _ _ SH h NO) in S.
    assert (KEEP : forall w y, watches c w = Some y -> In h (w_hs y) -> exists y', watches (set_obsolete c' []) w = Some y' /\ w_dir y' = w_dir y /\ In h (w_hs y')).
    { intros w y Y HY. apply (sh_keep _ _ _ _ _ _ SH w y h Y HY NO). }
    destruct (r_told _ _ _ _ C h x i S NO FI) as [R|R].
    + destruct (has (i, s_q x) (known c)) eqn:HK; [apply has_In in HK|apply has_false in HK; left; rewrite (sh_known _ _ _ _ _ _ SH); tauto].
      destruct (wf_known _ _ _ _ W _ _ HK) as (w & y & Y & D).
      destruct (linked _ _ _ _ h x i W S FI (stored_dirs _ _ _ _ w y i W Y D)) as [(w1 & y1 & Y1 & Y2 & Y3)|(DN & w1 & y1 & Y1 & Y2 & Y3 & [Z|Z])].
      * left. rewrite (sh_known _ _ _ _ _ _ SH). destruct (KEEP w1 y1 Y1 Y3) as (y2 & A1 & A2 & _). split.
        -- intros Z. split; [tauto|]. exists w1, y2. split; [exact A1|cbn; congruence].
        -- tauto.
      * right. destruct (KEEP w1 y1 Y1 Y3) as (y2 & A1 & A2 & A3).
        apply (due_mkdir _ _ _ _ _ _ w1 y2); [exact DN|exact A1|congruence|exact A3|apply MK; exact Z].
      * exfalso. apply (no_fnd_none _ _ Z).
    + right. apply (due_mono _ _ _ _ _ _ _ _ _ R KEEP).
      * intros w y _ _ _ L. left. rewrite LE. exact L.
      * auto.
      * intros w y _ _ _ Z. left. apply MK. exact Z.
  - intros h x i S I. cbn in S.
    assert (NO : ~ In h (obsolete c)).
    { intros Z. rewrite (sh_gone _ _ _ _ _ _ SH h Z) in S. discriminate. }
    rewrite (sh_stay _ _ _ _ _ _ SH h NO) in S. apply (r_match _ _ _ _ C h x i S I).
Qed.

Lemma inv2_worker s s' : Inv s -> Inv2 s -> step s WStep = Some s' -> Inv2 s'.
Proof.
  intros I J S. unfold step in S. rewrite (i_dead _ I) in S. destruct (crw s) as [cx|] eqn:CN; [discriminate|].
  pose proof (i_wf _ I) as W. rewrite CN in W. unfold worker_step in S. pose proof (i_sorted _ I) as SO.
  pose proof (j_con _ J) as C.
  assert (CNX : forall s1, crw s1 = None -> forall x, crw s1 = Some x -> ConX (pend s1) (ker s1) x) by (intros; congruence).
  destruct (wrk s) as [|b|[|[w e] r] im cre|[|h keys] cre|[|[w e] r] im|[|h keys]] eqn:WK; try discriminate;
    unfold pend, imp in C; rewrite WK in C; cbn in C.
  - destruct (transfer_all_spec (obsolete (cl s)) _ _ _ W) as (k & c & ign & T & SH & W'). rewrite T in S. injection S as <-.
    assert (PE : pend s = b ++ queue (ker s)) by (unfold pend; rewrite WK; reflexivity).
    pose proof (j_flip _ J b WK) as NF. rewrite PE in W.
    constructor; [|apply CNX; exact CN|discriminate].
    unfold pend, imp. cbn. rewrite (sh_queue _ _ _ _ _ _ SH).
    refine (con_shrunk _ _ _ _ _ c _ ign W C SH eq_refl _ _).
    + intros w q. rewrite app_assoc, (lastev_ign _ _ _ _ _ _ _ _ _ SH), !lastev_app.
      pose proof (lastev_split b w q NF) as LS. rewrite lastev_app in LS. rewrite LS. reflexivity.
    + intros w i Z. rewrite app_assoc. apply in_or_app. left. apply in_app_or in Z. apply in_or_app. destruct Z as [Z|Z]; [left|right; exact Z].
      apply (In_split_batch b _ (any_event _)). exact Z.
  - injection S as <-. constructor; [exact C|apply CNX; exact CN|discriminate].
  - assert (PE : pend s = (w, e) :: (r ++ cre) ++ queue (ker s)) by (unfold pend; rewrite WK; reflexivity). rewrite PE in W.
    destruct SO as [SO1 SO2]. pose proof (SO1 _ (or_introl eq_refl)) as SE.
    assert (NM : forall i, e <> EMkdir i) by (intros i ->; discriminate).
    destruct (watches (cl s) w) as [x|] eqn:X.
    2:{ injection S as <-. constructor; [|apply CNX; exact CN|discriminate]. unfold pend, imp. cbn.
        apply (con_drop _ (cl s) (cl s) im im w e _ W C); auto; try tauto.
        - intros x i q v Z. congruence.
        - intros x i h Z. congruence. }
    assert (ID : (forall q, says w q (w, e) = None) -> Con ((r ++ cre) ++ queue (ker s)) (ker s) (cl s) im).
    { intros N. apply (con_drop _ (cl s) (cl s) im im w e _ W C); auto; try tauto.
      - intros y i q v Y D Z. rewrite N in Z. discriminate.
      - intros y i h Y D Z. exfalso. apply (NM i Z). }
    destruct e as [i|q|q|]; [exfalso; apply (NM i); reflexivity|discriminate SE| |].
    + destruct (w_dir x) as [i|] eqn:D.
      * injection S as <-. constructor; [|apply CNX; exact CN|discriminate]. unfold pend, imp. cbn.
        apply (con_drop _ (cl s) (set_known (cl s) (remove (i, q) (known (cl s)))) im (w_hs x ++ im) w (EDelete q) _ W C); auto.
        -- intros y j q' v Y DY Z. assert (y = x) by congruence. subst y. assert (j = i) by congruence. subst j.
           unfold says in Z. cbn [fst snd] in Z. rewrite Nat.eqb_refl in Z. destruct (Bool.eqb q' q) eqn:Q; [|discriminate].
           apply Bool.eqb_prop in Q. subst q'. injection Z as <-. split; [|intros h Hh; apply in_or_app; auto].
           cbn [known set_known]. rewrite In_remove. split; [tauto|discriminate].
        -- intros j q'. cbn [known set_known]. rewrite In_remove.
           destruct (pair_eqb (j, q') (i, q)) eqn:Q.
           ++ apply pair_eqb_eq in Q. injection Q as -> ->. right. exists x, false. split; [exact X|]. split; [exact D|].
              unfold says. cbn [fst snd]. rewrite Nat.eqb_refl, Bool.eqb_reflx. reflexivity.
           ++ left. assert (NE : (j, q') <> (i, q)); [|tauto]. intros Z. apply pair_eqb_eq in Z. congruence.
        -- intros h Hh. apply in_or_app. auto.
        -- intros y j h Y DY Z. discriminate.
      * exfalso. apply (wf_flag _ _ _ _ W w q).
        -- right. left. reflexivity.
        -- rewrite <- D. apply (wf_kwd _ _ _ _ W w x X).
    + injection S as <-. constructor; [|apply CNX; exact CN|discriminate]. unfold pend, imp. cbn. apply ID.
      intros q. unfold says. cbn [fst snd]. destruct (w =? w); reflexivity.
  - injection S as <-. constructor; [|apply CNX; exact CN|discriminate]. exact C.
  - injection S as <-. constructor; [|apply CNX; exact CN|discriminate]. exact C.
  - assert (PE : pend s = (w, e) :: r ++ queue (ker s)) by (unfold pend; rewrite WK; reflexivity). rewrite PE in W.
    pose proof (SO _ (or_introl eq_refl)) as SE.
    destruct (watches (cl s) w) as [x|] eqn:X.
    2:{ injection S as <-. constructor; [|apply CNX; exact CN|discriminate]. unfold pend, imp. cbn.
        apply (con_drop _ (cl s) (cl s) im im w e _ W C); auto; try tauto.
        - intros x i q v Z. congruence.
        - intros x i h Z. congruence. }
    assert (ID : (forall q i, w_dir x = Some i -> says w q (w, e) = None) -> Con (r ++ queue (ker s)) (ker s) (cl s) (w_hs x ++ im)).
    { intros N. apply (con_drop _ (cl s) (cl s) im (w_hs x ++ im) w e _ W C); auto; try tauto.
      - intros y i q v Y D Z. assert (y = x) by congruence. subst y. rewrite (N q i D) in Z. discriminate.
      - intros h Hh. apply in_or_app. auto.
      - intros y i h Y D Z Hh. apply in_or_app. left. congruence. }
    destruct e as [i|q|q|]; try discriminate SE.
    + assert (NS : forall q j, w_dir x = Some j -> says w q (w, EMkdir i) = None).
      { intros q j _. unfold says. cbn [fst snd]. destruct (w =? w); reflexivity. }
      destruct (w_dir x) as [j|] eqn:D.
      * injection S as <-. constructor; [|apply CNX; exact CN|discriminate]. unfold pend, imp. cbn. apply ID. exact NS.
      * injection S as <-. constructor; [|intros y Y; injection Y as <-; intros t i' q P; discriminate|discriminate]. unfold pend, imp. cbn. apply ID. exact NS.
    + destruct (w_dir x) as [i|] eqn:D.
      * injection S as <-. constructor; [|apply CNX; exact CN|discriminate]. unfold pend, imp. cbn.
        apply (con_drop _ (cl s) (set_known (cl s) (insert (i, q) (known (cl s)))) im (w_hs x ++ im) w (ECreate q) _ W C); auto.
        -- intros y j q' v Y DY Z. assert (y = x) by congruence. subst y. assert (j = i) by congruence. subst j.
           unfold says in Z. cbn [fst snd] in Z. rewrite Nat.eqb_refl in Z. destruct (Bool.eqb q' q) eqn:Q; [|discriminate].
           apply Bool.eqb_prop in Q. subst q'. injection Z as <-. split; [|intros h Hh; apply in_or_app; auto].
           cbn [known set_known]. rewrite In_insert. tauto.
        -- intros j q'. cbn [known set_known]. rewrite In_insert.
           destruct (pair_eqb (j, q') (i, q)) eqn:Q.
           ++ apply pair_eqb_eq in Q. injection Q as -> ->. right. exists x, true. split; [exact X|]. split; [exact D|].
              unfold says. cbn [fst snd]. rewrite Nat.eqb_refl, Bool.eqb_reflx. reflexivity.
           ++ left. assert (NE : (j, q') <> (i, q)); [|tauto]. intros Z. apply pair_eqb_eq in Z. congruence.
        -- intros h Hh. apply in_or_app. auto.
        -- intros y j h Y DY Z. discriminate.
      * exfalso. apply (wf_flag _ _ _ _ W w q).
        -- left. left. reflexivity.
        -- rewrite <- D. apply (wf_kwd _ _ _ _ W w x X).
  - injection S as <-. constructor; [|apply CNX; exact CN|discriminate]. exact C.
Qed.

Lemma inv2_handle s h s' : Inv s -> Inv2 s -> step s (WHandle h) = Some s' -> Inv2 s'.
Proof.
  intros I J S. unfold step in S. rewrite (i_dead _ I) in S. destruct (crw s) as [cx|] eqn:CN; [discriminate|].
  pose proof (j_con _ J) as C.
  destruct (call_handler_same (cl s) h) as (E1 & E2 & E3 & E4 & E5 & E6).
  assert (G : forall P keys, Con P (ker s) (cl s) keys -> Con P (ker s) (call_handler (cl s) h) (del h keys)).
  { intros P keys D. constructor.
    - apply (k_last _ _ _ _ D).
    - intros i w x q X Dx L. rewrite E1 in X. rewrite E3. apply (c_same _ _ _ _ D i w x q X Dx L).
    - intros h' y i Y A FI. rewrite E3. rewrite E4 in A. destruct (searches (cl s) h') as [x|] eqn:X; [|rewrite (E5 h' X) in Y; discriminate].
      destruct (E6 h' x X) as (y' & Y1 & Y2 & Y3 & Y4 & Y5 & Y6). assert (y' = y) by congruence. subst y'.
      destruct (Nat.eq_dec h' h) as [->|N].
      + left. rewrite (Y6 eq_refl A), Y3, In_handles. rewrite <- Y2. split; [tauto|]. intros Z. auto.
      + rewrite (Y5 N) in *. destruct (r_told _ _ _ _ D h' x i X A FI) as [R|R]; [auto|]. right.
        apply (due_mono _ _ _ _ _ _ _ _ _ R); auto.
        * intros w z Z HZ. exists z. rewrite E1. auto.
        * intros Z. apply In_del. auto.
    - intros h' y i Y Z. destruct (searches (cl s) h') as [x|] eqn:X; [|rewrite (E5 h' X) in Y; discriminate].
      destruct (E6 h' x X) as (y' & Y1 & Y2 & Y3 & Y4 & Y5 & Y6). assert (y' = y) by congruence. subst y'.
      destruct (Nat.eq_dec h' h) as [->|N]; [|rewrite (Y5 N) in *; apply (r_match _ _ _ _ D h' x i X Z)].
      rewrite Y2. destruct (in_dec Nat.eq_dec h (obsolete (cl s))) as [O|O].
      + assert (HC : call_handler (cl s) h = cl s) by (unfold call_handler; rewrite X, (proj2 (mem_In _ _) O); reflexivity).
        rewrite HC in Y. assert (y = x) by congruence. subst y. apply (r_match _ _ _ _ D h x i X Z).
      + apply (Y6 eq_refl O) in Z. apply In_handles in Z. apply Z. }
  destruct (wrk s) as [| | |keys cre| |keys] eqn:WK; try discriminate; destruct (mem h keys); try discriminate; injection S as <-.
  - constructor; [|intros x X; cbn in X; congruence|discriminate]. unfold pend, imp in *. cbn. rewrite WK in C. apply G. exact C.
  - constructor; [|intros x X; cbn in X; congruence|discriminate]. unfold pend, imp in *. cbn. rewrite WK in C. apply G. exact C.
Qed.

(** The batches that the worker reads: none holds the creation of a flag file followed by its removal. *)
Definition calm (s : st) (l : label) : Prop :=
  match l with Read n => no_flip (firstn n (queue (ker s))) = true | FoundFail => False | _ => True end.

Theorem inv2_step s l s' : Inv s -> Inv2 s -> calm s l -> step s l = Some s' -> Inv2 s'.
Proof.
  intros I J K S. destruct l.
  - apply (inv2_fs s _ s' I J S Logic.I).
  - apply (inv2_fs s _ s' I J S Logic.I).
  - apply (inv2_fs s _ s' I J S Logic.I).
  - apply (inv2_start _ _ _ _ _ I J S).
  - unfold step in S. rewrite (i_dead _ I) in S. destruct (may_enter s) eqn:ME; [|discriminate]. injection S as <-.
    constructor; [|apply (j_crw _ J)|apply (j_flip _ J)]. pose proof (j_con _ J) as C. constructor.
    + apply (k_last _ _ _ _ C).
    + apply (c_same _ _ _ _ C).
    + intros h' x i X A FI. cbn in A. destruct (r_told _ _ _ _ C h' x i X) as [R|R]; auto.
      * intros Z. apply A. apply In_add. auto.
      * right. apply (due_mono _ _ _ _ _ _ _ _ _ R); auto. intros w y Y HY. exists y. auto.
    + apply (r_match _ _ _ _ C).
  - apply (inv2_crawl _ _ I J S).
  - unfold step in S. rewrite (i_dead _ I) in S. destruct (crw s) as [[[h0 d q|w i] ph ws is fo]|] eqn:CN; try discriminate.
    destruct (h =? h0); [|discriminate]. injection S as <-. constructor; [apply (j_con _ J)|discriminate|apply (j_flip _ J)].
  - unfold step in S. rewrite (i_dead _ I) in S. destruct (crw s) as [[y ph ws is fo]|] eqn:CN; try discriminate.
    injection S as <-. constructor; [apply (j_con _ J)| |apply (j_flip _ J)]. intros x X. injection X as <-. intros t i q P. discriminate.
  - destruct K.
  - unfold step in S. rewrite (i_dead _ I) in S. destruct (wrk s) eqn:WK; try discriminate. injection S as <-. cbn [calm] in K.
    assert (PE : pend s = queue (ker s)) by (unfold pend; rewrite WK; reflexivity).
    assert (IE : imp s = []) by (unfold imp; rewrite WK; reflexivity).
    pose proof (j_con _ J) as C. rewrite PE, IE in C. constructor.
    + unfold pend, imp. cbn [ker cl wrk batch_of queue]. rewrite firstn_skipn.
      constructor; [apply (k_last _ _ _ _ C)|apply (c_same _ _ _ _ C)|apply (r_told _ _ _ _ C)|apply (r_match _ _ _ _ C)].
    + intros x X. pose proof (j_crw _ J x X) as Y. rewrite PE in Y. unfold pend. cbn [ker wrk batch_of queue]. rewrite firstn_skipn. exact Y.
    + intros b B. injection B as <-. exact K.
  - apply (inv2_worker _ _ I J S).
  - apply (inv2_handle _ _ _ I J S).
Qed.
