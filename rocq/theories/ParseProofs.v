(** Reading the configuration file: the reader does what ParseSpec says *)
From Coq Require Import String.
From Verif Require Import Base NamesModel DeplModel ConfModel DeplProofs FilterModel FilterSpec FilterProofs IdentProps ConfProps FilterProps
  ParseModel ParseSpec.
Open Scope N_scope.

Ltac keys := unfold p_instances, p_specifier, p_type_name, p_version, p_major, p_minor, p_deployments, p_binding,
  p_bindings, p_asil, p_service_id, p_instance_id, p_types, p_events, p_event_name, p_event_id, p_fields,
  p_field_name, p_field_id, p_methods, p_method_name, p_method_id, p_queue, p_use, p_slots, p_max_samples,
  p_subscribers, p_enforce, p_allocations, p_get, p_set, p_shm_size, p_b_size, p_qm_size, p_global, p_consumer,
  p_provider, p_queues, p_mode, p_tracing, p_enable, p_trace_app, p_app, p_filter, p_vm, p_vm_forwarded,
  p_trace_slots, p_permission in *.
Lemma bind_done {A B} (x : out A) (f : A -> out B) b :
  bind x f = Done b <-> exists a, x = Done a /\ f a = Done b.
Proof.
  destruct x as [a| |]; cbn [bind]; split.
  - intros H. exists a. auto.
  - intros (a' & E & H). injection E as <-. exact H.
  - discriminate.
  - intros (a' & E & _). discriminate.
  - discriminate.
  - intros (a' & E & _). discriminate.
Qed.
Ltac binds H := repeat match type of H with
  | bind _ _ = Done _ => let x := fresh "x" in let E := fresh "E" in apply bind_done in H; destruct H as (x & E & H)
  end.

(** * Members *)

Lemma need_done o k j : need o k = Done j <-> find k o = Some j.
Proof. unfold need. destruct (find k o); split; intros E; try discriminate; injection E as ->; reflexivity. Qed.
Lemma as_num_done lim j n : as_num lim j = Done n <-> is_num lim j n.
Proof.
  unfold as_num, is_num. destruct j as [m| | | | |]; try (split; [discriminate|intros [E _]; discriminate]).
  destruct (N.ltb_spec m lim); split.
  - intros E; injection E as <-; auto.
  - intros [E _]; injection E as <-; reflexivity.
  - discriminate.
  - intros [E L]; injection E as <-; lia.
Qed.
Lemma as_bool_done j b : as_bool j = Done b <-> is_flag j b.
Proof. unfold as_bool, is_flag. destruct j; split; intros E; try discriminate; injection E as ->; reflexivity. Qed.
Lemma as_str_done j s : as_str j = Done s <-> is_text j s.
Proof. unfold as_str, is_text. destruct j; split; intros E; try discriminate; injection E as ->; reflexivity. Qed.
Lemma as_obj_done j o : as_obj j = Done o <-> j = JObj o.
Proof. unfold as_obj. destruct j; split; intros E; try discriminate; injection E as ->; reflexivity. Qed.
Lemma as_list_done j l : as_list j = Done l <-> j = JList l.
Proof. unfold as_list. destruct j; split; intros E; try discriminate; injection E as ->; reflexivity. Qed.
Lemma get_text_done o k n : get_str o k = Done n <-> has is_text o k n.
Proof.
  unfold get_str, has, is_text. destruct (find k o) as [[| | | | |]|]; split;
    intros H; try discriminate; try (destruct H as (j & E & H); injection E as <-; discriminate);
    try (destruct H as (j & E & H); discriminate).
  - injection H as <-. eauto.
  - destruct H as (j & E & H). injection E as <-. congruence.
Qed.
Lemma opt_done {A} (f : json -> out A) (R : json -> A -> Prop) o k v : (forall j a, f j = Done a <-> R j a) ->
  opt f o k = Done v <-> may_have R o k v.
Proof.
  intros H. unfold opt, may_have, has, missing. destruct (find k o) as [j|].
  - rewrite bind_done. split.
    + intros (a & E & Q). injection Q as <-. exists j. split; [reflexivity|]. apply H, E.
    + destruct v as [a|]; [|discriminate]. intros (j' & E & Q). injection E as <-. exists a.
      split; [apply H, Q|reflexivity].
  - destruct v; split; auto; try discriminate. intros (j' & E & _). discriminate.
Qed.
Lemma may_or {A} (R : json -> A -> Prop) d o k v : may_have R o k v -> has_or R d o k (value_or d v).
Proof. unfold has_or. destruct v; cbn [may_have value_or]; auto. Qed.
Lemma or_may {A} (R : json -> A -> Prop) d o k a : has_or R d o k a -> exists v, may_have R o k v /\ value_or d v = a.
Proof. intros [H|[H ->]]; [exists (Some a)|exists None]; auto. Qed.
Lemma need_has {A} (R : json -> A -> Prop) o k j a : find k o = Some j -> R j a -> has R o k a.
Proof. unfold has. eauto. Qed.

Ltac conv := repeat match goal with
  | H : need _ _ = Done _ |- _ => apply need_done in H
  | H : as_num _ _ = Done _ |- _ => apply as_num_done in H
  | H : as_bool _ = Done _ |- _ => apply as_bool_done in H
  | H : as_str _ = Done _ |- _ => apply as_str_done in H
  | H : as_obj _ = Done _ |- _ => apply as_obj_done in H
  | H : as_list _ = Done _ |- _ => apply as_list_done in H
  | H : get_str _ _ = Done _ |- _ => apply get_text_done in H
  | H : opt (as_num _) _ _ = Done _ |- _ => apply (opt_done _ _ _ _ _ (as_num_done _)) in H
  | H : opt as_bool _ _ = Done _ |- _ => apply (opt_done _ _ _ _ _ as_bool_done) in H
  | H : opt as_str _ _ = Done _ |- _ => apply (opt_done _ _ _ _ _ as_str_done) in H
  end.
(** Going the other way: evaluate the next step from what the specification says *)
Ltac numopt H := rewrite (proj2 (opt_done _ _ _ _ _ (as_num_done _)) H); cbn [bind].
Ltac flagopt H := let v := fresh "v" in let E := fresh "E" in
  apply or_may in H; destruct H as (v & H & E);
  rewrite (proj2 (opt_done _ _ _ _ _ as_bool_done) H); cbn [bind].
Ltac numor H := let v := fresh "v" in let E := fresh "E" in
  apply or_may in H; destruct H as (v & H & E);
  rewrite (proj2 (opt_done _ _ _ _ _ (as_num_done _)) H); cbn [bind].
Ltac texthas H := let j := fresh "j" in let E := fresh "E" in
  destruct H as (j & E & H); rewrite (proj2 (need_done _ _ _) E); cbn [bind];
  rewrite (proj2 (as_str_done _ _) H); cbn [bind].

(** * Lists *)

Lemma emplace_done {A} (f : json -> out (name * A)) (R : json -> name * A -> Prop) l :
  (forall j x, In j l -> f j = Done x <-> R j x) -> forall seen m, NoDup (map fst seen) ->
  emplace_all f l seen = Done m <-> exists t, m = rev seen ++ t /\ NoDup (map fst m) /\ Forall2 R l t.
Proof.
  induction l as [|j l IH]; intros HR seen m Hd; cbn [emplace_all].
  - split.
    + intros E. injection E as <-. exists []. rewrite app_nil_r. split; [reflexivity|].
      split; [|constructor]. rewrite map_rev. apply NoDup_rev, Hd.
    + intros (t & -> & _ & H). inversion H; subst. rewrite app_nil_r. reflexivity.
  - assert (HR' : forall j x, In j l -> f j = Done x <-> R j x) by (intros; apply HR; right; assumption).
    rewrite bind_done. split.
    + intros ([k v] & E & H). cbn [fst] in H. destruct (find k seen) eqn:F; [discriminate|].
      apply find_none in F. apply (IH HR') in H; [|cbn [map fst]; constructor; auto].
      destruct H as (t & -> & Hn & H). exists ((k, v) :: t). cbn [rev] in *.
      rewrite <- app_assoc in *. cbn [app] in *. split; [reflexivity|]. split; [exact Hn|].
      constructor; [|exact H]. apply HR; [left; reflexivity|exact E].
    + intros (t & -> & Hn & H). inversion H as [|? [k v] ? t' Hk Ht]; subst.
      exists (k, v). split; [apply HR; [left; reflexivity|exact Hk]|]. cbn [fst].
      assert (F : find k seen = None).
      { apply find_none. intros Hi. rewrite map_app, map_rev in Hn. cbn [map fst] in Hn.
        apply NoDup_remove_2 in Hn. apply Hn. apply in_or_app. left. apply in_rev in Hi. exact Hi. }
      rewrite F. apply (IH HR').
      * cbn [map fst]. constructor; [apply find_none, F|exact Hd].
      * exists t'. cbn [rev]. rewrite <- app_assoc. cbn [app]. auto.
Qed.
Lemma elements_done {A} (f : object -> out (name * A)) (R : object -> name * A -> Prop) o k m :
  (forall o x, f o = Done x <-> R o x) -> parse_elements f o k = Done m <-> named R o k m.
Proof.
  intros H. unfold parse_elements, named, has_or, has, missing, lists. destruct (find k o) as [j|].
  - assert (HR : forall l, forall j x, In j l -> (y <- as_obj j ;; f y) = Done x <-> exists o, j = JObj o /\ R o x).
    { intros l j0 x _. rewrite bind_done. split.
      - intros (y & E & Q). apply as_obj_done in E. exists y. split; [exact E|]. apply H, Q.
      - intros (y & E & Q). exists y. split; [apply as_obj_done, E|apply H, Q]. }
    rewrite bind_done. split.
    + intros (l & E & Q). apply as_list_done in E. apply (emplace_done _ _ _ (HR l)) in Q; [|constructor].
      destruct Q as (t & -> & D & Q). cbn [rev app] in *. split; [|exact D]. left. exists j.
      split; [reflexivity|]. exists l. auto.
    + intros [[(j' & E & l & -> & Q)|[E _]] D]; [|discriminate]. injection E as ->. exists l.
      split; [reflexivity|]. apply (emplace_done _ _ _ (HR l)); [constructor|]. exists m. auto.
  - split.
    + intros E. injection E as <-. split; [right; auto|constructor].
    + intros [[(j' & E & _)|[_ ->]] _]; [discriminate|reflexivity].
Qed.

(** * Parts of an instance *)

Lemma service_done o s : parse_service o = Done s <-> says_service o s.
Proof.
  unfold parse_service, says_service. split.
  - intros H. binds H. injection H as <-. conv. subst. cbn [sv_name sv_major sv_minor]. split.
    + exists x0. split; [eapply need_has; eassumption|reflexivity].
    + exists x2. split; [eassumption|]. split; eapply need_has; eassumption.
  - destruct s as [n a b]. cbn [sv_name sv_major sv_minor].
    intros ((n0 & Hn & <-) & v & Hv & (ja & Ea & Ha) & (jb & Eb & Hb)). keys.
    texthas Hn. rewrite (proj2 (need_done _ _ _) Hv). cbn [bind as_obj].
    rewrite (proj2 (need_done _ _ _) Ea). cbn [bind]. rewrite (proj2 (need_done _ _ _) Eb). cbn [bind].
    rewrite (proj2 (as_num_done _ _ _) Ha). cbn [bind]. rewrite (proj2 (as_num_done _ _ _) Hb). reflexivity.
Qed.
Lemma slots_done o v : parse_slots o = Done v <-> says_slots o v.
Proof.
  unfold parse_slots, says_slots, missing. keys. destruct (find (str "maxSamples") o) as [j|] eqn:F.
  - destruct (find (str "numberOfSampleSlots") o) as [j'|].
    + split; [discriminate|]. intros [[E _]|(n & _ & _ & E)]; discriminate.
    + rewrite bind_done. split.
      * intros (n & E & H). injection H as <-. apply as_num_done in E. right. exists n.
        repeat split; auto. eapply need_has; eassumption.
      * intros [[E _]|(n & -> & (j0 & E & H) & _)]; [discriminate|]. rewrite F in E. injection E as <-.
        exists n. split; [apply as_num_done, H|reflexivity].
  - rewrite (opt_done _ _ _ _ _ (as_num_done _)). split; [auto|].
    intros [[_ H]|(n & _ & (j0 & E & _) & _)]; [exact H|]. rewrite F in E. discriminate.
Qed.
Lemma event_done o x : parse_event_depl o = Done x <-> says_event o x.
Proof.
  unfold parse_event_depl, says_event, abort_if_found. split.
  - intros H. binds H. injection H as <-. cbn [fst snd ev_slots ev_subs ev_allocs ev_enforce ev_tracing].
    apply slots_done in E2. conv. keys. unfold missing.
    destruct (find (str "maxConcurrentAllocations") o); [discriminate|].
    split; [eapply need_has; eassumption|]. split; [reflexivity|]. split; [assumption|]. split; [assumption|].
    split; [reflexivity|]. split; apply may_or; assumption.
  - destruct x as [n [sl su al en tr]]. cbn [fst snd ev_slots ev_subs ev_allocs ev_enforce ev_tracing].
    intros (H1 & H2 & H3 & H4 & H5 & H6 & H7). keys. unfold missing in H2. rewrite H2. cbn [bind]. texthas H1.
    rewrite (proj2 (slots_done _ _) H3). cbn [bind]. numopt H4. flagopt H6. numor H7. subst. reflexivity.
Qed.
Lemma field_done o x : parse_field_depl o = Done x <-> says_field o x.
Proof.
  unfold parse_field_depl, says_field, abort_if_found. split.
  - intros H. binds H. injection H as <-.
    cbn [fst snd ev_slots ev_subs ev_allocs ev_enforce ev_tracing fd_event fd_get fd_set].
    conv. keys. unfold missing. destruct (find (str "maxConcurrentAllocations") o); [discriminate|].
    split; [eapply need_has; eassumption|]. split; [reflexivity|]. split; [assumption|]. split; [assumption|].
    split; [reflexivity|]. split; [apply may_or; assumption|]. split; [apply may_or; assumption|].
    split; apply may_or; assumption.
  - destruct x as [n [[sl su al en tr] g s]].
    cbn [fst snd ev_slots ev_subs ev_allocs ev_enforce ev_tracing fd_event fd_get fd_set].
    intros (H1 & H2 & H3 & H4 & H5 & H6 & H7 & H8 & H9). keys. unfold missing in H2. rewrite H2. cbn [bind]. texthas H1.
    numopt H3. numopt H4. flagopt H6. numor H7. flagopt H8. flagopt H9. subst. reflexivity.
Qed.
Lemma method_done o x : parse_method_depl o = Done x <-> says_method o x.
Proof.
  unfold parse_method_depl, says_method. split.
  - intros H. binds H. injection H as <-. cbn [fst snd md_queue md_use]. conv. keys.
    split; [assumption|]. split; [assumption|]. apply may_or; assumption.
  - destruct x as [n [q u]]. cbn [fst snd md_queue md_use]. intros (H1 & H2 & H3). keys.
    rewrite (proj2 (get_text_done _ _ _) H1). cbn [bind]. numopt H2. flagopt H3. subst. reflexivity.
Qed.

Lemma uids_done l m : parse_uids l = Done m <-> l = map JNum m /\ forall u, In u m -> u < two32.
Proof.
  revert m. induction l as [|j l IH]; intros m; cbn [parse_uids].
  - split.
    + intros E; injection E as <-. split; [reflexivity|intros u []].
    + intros [E _]. destruct m; [reflexivity|discriminate].
  - rewrite bind_done. split.
    + intros (n & E & H). apply bind_done in H. destruct H as (r & F & H). injection H as <-.
      apply as_num_done in E. destruct E as [-> L]. apply IH in F. destruct F as [-> F].
      split; [reflexivity|]. intros u [<-|I]; auto.
    + intros [E H]. destruct m as [|n m]; [discriminate|]. injection E as -> ->. exists n.
      split; [apply as_num_done; split; [reflexivity|apply H; left; reflexivity]|].
      apply bind_done. exists m. split; [|reflexivity]. apply IH. split; [reflexivity|].
      intros u I. apply H. right. exact I.
Qed.
Lemma user_list_done j l m : j = JList l -> parse_uids l = Done m <-> is_uids j m.
Proof. intros ->. unfold is_uids. rewrite uids_done. split; intros [E H]; split; auto; congruence. Qed.
Lemma qm_not_b : str "QM" <> str "B". Proof. discriminate. Qed.

(** A list of at most two entries with different keys *)
Lemma two_keys (u : object) : NoDup (map fst u) -> (forall n, In n (map fst u) -> n = str "QM" \/ n = str "B") ->
  u = [] \/ (exists a, u = [(str "QM", a)]) \/ (exists b, u = [(str "B", b)]) \/
  (exists a b, u = [(str "QM", a); (str "B", b)]) \/ (exists a b, u = [(str "B", b); (str "QM", a)]).
Proof.
  intros D K. destruct u as [|[k1 v1] [|[k2 v2] [|[k3 v3] u]]]; cbn [map fst In] in *.
  - auto.
  - destruct (K k1 (or_introl eq_refl)) as [->| ->]; eauto.
  - inversion D as [|? ? N1 D2]; subst.
    destruct (K k1 (or_introl eq_refl)) as [->| ->]; destruct (K k2 (or_intror (or_introl eq_refl))) as [->| ->];
      try (exfalso; apply N1; left; reflexivity).
    + right; right; right; left. eauto.
    + right; right; right; right. eauto.
  - exfalso. inversion D as [|? ? N1 D2]; subst. inversion D2 as [|? ? N2 D3]; subst.
    destruct (K k1 (or_introl eq_refl)) as [->| ->]; destruct (K k2 (or_intror (or_introl eq_refl))) as [->| ->];
      destruct (K k3 (or_intror (or_intror (or_introl eq_refl)))) as [->| ->]; cbn [In] in *; tauto.
Qed.
Lemma user_one a m r : parse_user (str "QM", a) m = Done r <-> exists ids, is_uids a ids /\ r = put (quality_text QQM) ids m.
Proof.
  unfold parse_user. cbn [fst snd]. rewrite name_eqb_refl. rewrite bind_done. split.
  - intros (l & E & H). binds H. injection H as <-. apply as_list_done in E. exists x. split; [|reflexivity].
    apply (user_list_done a l x E), E0.
  - intros (ids & H & ->). destruct a as [| | |l| |]; try (destruct H as [H _]; discriminate). exists l.
    split; [reflexivity|]. apply bind_done. exists ids. split; [|reflexivity].
    apply (user_list_done (JList l) l ids eq_refl), H.
Qed.
Lemma user_other a m r : parse_user (str "B", a) m = Done r <-> exists ids, is_uids a ids /\ r = put (quality_text QB) ids m.
Proof.
  unfold parse_user. cbn [fst snd].
  rewrite (proj2 (name_eqb_neq (str "B") (str "QM"))) by discriminate. rewrite name_eqb_refl. rewrite bind_done. split.
  - intros (l & E & H). binds H. injection H as <-. apply as_list_done in E. exists x. split; [|reflexivity].
    apply (user_list_done a l x E), E0.
  - intros (ids & H & ->). destruct a as [| | |l| |]; try (destruct H as [H _]; discriminate). exists l.
    split; [reflexivity|]. apply bind_done. exists ids. split; [|reflexivity].
    apply (user_list_done (JList l) l ids eq_refl), H.
Qed.
Lemma user_known e m r : parse_user e m = Done r -> fst e = str "QM" \/ fst e = str "B".
Proof.
  unfold parse_user. intros H. binds H. destruct (name_eqb (fst e) (str "QM")) eqn:Q; [left; apply name_eqb_eq, Q|].
  destruct (name_eqb (fst e) (str "B")) eqn:B; [right; apply name_eqb_eq, B|discriminate].
Qed.
Lemma users_known u m r : loop parse_user u m = Done r -> forall n, In n (map fst u) -> n = str "QM" \/ n = str "B".
Proof.
  revert m. induction u as [|e u IH]; cbn [loop map]; intros m H n; [intros []|]. binds H.
  intros [<-|I]; [eapply user_known; eassumption|eapply IH; eassumption].
Qed.
Lemma users_loop u m : NoDup (map fst u) ->
  loop parse_user u [] = Done m <->
  (forall n, In n (map fst u) -> n = str "QM" \/ n = str "B") /\
  exists b q, may_have is_uids u (str "B") b /\ may_have is_uids u (str "QM") q /\
    m = entry (quality_text QB) b ++ entry (quality_text QQM) q.
Proof.
  intros D.
  assert (X : (forall n, In n (map fst u) -> n = str "QM" \/ n = str "B") ->
    loop parse_user u [] = Done m <->
    exists b q, may_have is_uids u (str "B") b /\ may_have is_uids u (str "QM") q /\
      m = entry (quality_text QB) b ++ entry (quality_text QQM) q).
  { intros K. destruct (two_keys u D K) as [->|[[a ->]|[[b ->]|[(a & b & ->)|(a & b & ->)]]]].
    - cbn [loop]. split.
      + intros E. injection E as <-. exists None, None. repeat split.
      + intros (b & q & Hb & Hq & ->). destruct b as [b|]; [destruct Hb as (j & E & _); discriminate|].
        destruct q as [q|]; [destruct Hq as (j & E & _); discriminate|]. reflexivity.
    - cbn [loop]. rewrite bind_done. setoid_rewrite user_one. split.
      + intros (r & (ids & H & ->) & E). injection E as <-. exists None, (Some ids). repeat split.
        exists a. split; [reflexivity|exact H].
      + intros (b & q & Hb & Hq & ->). destruct b as [b|]; [destruct Hb as (j & E & _); discriminate|].
        destruct q as [q|]; [|discriminate Hq]. destruct Hq as (j & E & H). injection E as <-.
        eexists. split; [exists q; split; [exact H|reflexivity]|reflexivity].
    - cbn [loop]. rewrite bind_done. setoid_rewrite user_other. split.
      + intros (r & (ids & H & ->) & E). injection E as <-. exists (Some ids), None. repeat split.
        exists b. split; [reflexivity|exact H].
      + intros (b0 & q & Hb & Hq & ->). destruct q as [q|]; [destruct Hq as (j & E & _); discriminate|].
        destruct b0 as [b0|]; [|discriminate Hb]. destruct Hb as (j & E & H). injection E as <-.
        eexists. split; [exists b0; split; [exact H|reflexivity]|reflexivity].
    - cbn [loop]. rewrite bind_done. setoid_rewrite user_one. setoid_rewrite bind_done. setoid_rewrite user_other. split.
      + intros (r & (ids & H & ->) & r' & (ids' & H' & ->) & E). injection E as <-. exists (Some ids'), (Some ids).
        split; [exists b; split; [reflexivity|exact H']|]. split; [exists a; split; [reflexivity|exact H]|]. reflexivity.
      + intros (b0 & q & Hb & Hq & ->). destruct q as [q|]; [|discriminate Hq]. destruct b0 as [b0|]; [|discriminate Hb].
        destruct Hb as (j & E & H). injection E as <-. destruct Hq as (j & E & H'). injection E as <-.
        eexists. split; [exists q; split; [exact H'|reflexivity]|].
        eexists. split; [exists b0; split; [exact H|reflexivity]|reflexivity].
    - cbn [loop]. rewrite bind_done. setoid_rewrite user_other. setoid_rewrite bind_done. setoid_rewrite user_one. split.
      + intros (r & (ids & H & ->) & r' & (ids' & H' & ->) & E). injection E as <-. exists (Some ids), (Some ids').
        split; [exists b; split; [reflexivity|exact H]|]. split; [exists a; split; [reflexivity|exact H']|]. reflexivity.
      + intros (b0 & q & Hb & Hq & ->). destruct q as [q|]; [|discriminate Hq]. destruct b0 as [b0|]; [|discriminate Hb].
        destruct Hb as (j & E & H). injection E as <-. destruct Hq as (j & E & H'). injection E as <-.
        eexists. split; [exists b0; split; [exact H|reflexivity]|].
        eexists. split; [exists q; split; [exact H'|reflexivity]|reflexivity]. }
  split.
  - intros H. pose proof (users_known _ _ _ H) as K. split; [exact K|]. apply X; assumption.
  - intros [K H]. apply X; assumption.
Qed.

(** Values inside a value without double keys *)
Lemma unique_obj o : unique_keys (JObj o) -> NoDup (map fst o).
Proof. intros [H _]. exact H. Qed.
Lemma unique_member o k j : unique_keys (JObj o) -> find k o = Some j -> unique_keys j.
Proof.
  intros [_ H]. revert H. induction o as [|[k' x] o IH]; cbn [find]; [discriminate|].
  intros [Hx Ho] F. destruct (name_eqb k k'); [injection F as <-; exact Hx|apply IH; assumption].
Qed.
Lemma unique_item l j : unique_keys (JList l) -> In j l -> unique_keys j.
Proof. induction l as [|x l IH]; [intros _ []|]. intros [Hx Hl] [<-|I]; [exact Hx|apply IH; assumption]. Qed.

Lemma users_done o k m : unique_keys (JObj o) -> parse_users o k = Done m <-> says_users o k m.
Proof.
  intros U. unfold parse_users, says_users, missing. destruct (find k o) as [j|] eqn:F.
  - rewrite bind_done. split.
    + intros (u & E & H). apply as_obj_done in E. subst j. right.
      apply users_loop in H; [|apply unique_obj; eapply unique_member; eassumption].
      destruct H as (K & b & q & Hb & Hq & E). exists u, b, q. auto.
    + intros [[E _]|(u & b & q & E & K & Hb & Hq & H)]; [discriminate|]. injection E as ->. exists u.
      split; [reflexivity|]. apply users_loop; [apply unique_obj; eapply unique_member; eassumption|].
      split; [exact K|]. exists b, q. auto.
  - split.
    + intros E. injection E as <-. auto.
    + intros [[_ ->]|(u & b & q & E & _)]; [reflexivity|discriminate].
Qed.

Lemma strict_done o b : parse_strict o = Done b <-> says_strict o b.
Proof.
  unfold parse_strict, says_strict. keys. rewrite bind_done. setoid_rewrite (fun v => opt_done _ _ o _ v as_str_done). split.
  - intros ([s|] & H & E).
    + destruct (name_eqb s (str "strict")) eqn:S1.
      { apply name_eqb_eq in S1. subst s. injection E as <-. left. split; [reflexivity|exact H]. }
      destruct (name_eqb s (str "file-permissions-on-empty")) eqn:S2; [|discriminate].
      apply name_eqb_eq in S2. subst s. injection E as <-. right. split; [reflexivity|left; exact H].
    + injection E as <-. right. split; [reflexivity|right; auto].
  - intros [[-> H]|[-> [H|[H _]]]].
    + exists (Some (str "strict")). split; [exact H|]. rewrite name_eqb_refl. reflexivity.
    + exists (Some (str "file-permissions-on-empty")). split; [exact H|].
      rewrite (proj2 (name_eqb_neq _ _)) by discriminate. rewrite name_eqb_refl. reflexivity.
    + exists None. split; [exact H|reflexivity].
Qed.

Lemma lola_done o l : unique_keys (JObj o) -> parse_lola o = Done l <-> says_lola o l.
Proof.
  intros U. unfold parse_lola, says_lola. split.
  - intros H. binds H. injection H as <-.
    cbn [li_id li_shm li_b li_qm li_events li_fields li_methods li_strict li_consumer li_provider li_vm li_forwarded].
    apply (elements_done _ _ _ _ _ event_done) in E6. apply (elements_done _ _ _ _ _ field_done) in E7.
    apply (elements_done _ _ _ _ _ method_done) in E8. apply strict_done in E9.
    apply users_done in E10; [|exact U]. apply users_done in E11; [|exact U]. conv. keys.
    split; [assumption|]. split; [assumption|]. split; [assumption|]. split; [assumption|]. split; [assumption|].
    split; [assumption|]. split; [assumption|]. split; [assumption|]. split; [assumption|]. split; [assumption|].
    split; [apply may_or; assumption|]. split; [apply may_or; assumption|].
    intros V. rewrite V in E5. destruct (value_or false x3); [reflexivity|discriminate].
  - destruct l as [i shm b qm e f m st co pr vm fw].
    cbn [li_id li_shm li_b li_qm li_events li_fields li_methods li_strict li_consumer li_provider li_vm li_forwarded].
    intros (H1 & H2 & H3 & H4 & H5 & H6 & H7 & H8 & H9 & H10 & H11 & H12 & H13). keys.
    numopt H2. numopt H3. numopt H4. numopt H1. flagopt H11. flagopt H12. subst.
    assert (X : (if value_or false v0 && negb (value_or false v) then @Terminates unit else Done tt) = Done tt).
    { destruct (value_or false v0); [|reflexivity]. rewrite H13 by reflexivity. reflexivity. }
    rewrite X. cbn [bind].
    rewrite (proj2 (elements_done _ _ _ _ _ event_done) H5). cbn [bind].
    rewrite (proj2 (elements_done _ _ _ _ _ field_done) H6). cbn [bind].
    rewrite (proj2 (elements_done _ _ _ _ _ method_done) H7). cbn [bind].
    rewrite (proj2 (strict_done _ _) H8). cbn [bind].
    rewrite (proj2 (users_done _ _ _ U) H9). cbn [bind]. rewrite (proj2 (users_done _ _ _ U) H10). reflexivity.
Qed.

(** * Tracing *)

Lemma trace_element_eq s i k o n v m :
  has is_text o (match k with KEvent => str "eventName" | KField => str "fieldName" end) n ->
  has_or (is_num two8) 0 o (str "numberOfIpcTracingSlots") v ->
  trace_element s i k (JObj o) m = trace_el s i k (n, v) m.
Proof.
  intros (j & F & T) H. unfold trace_element, trace_el. cbn [as_obj bind fst snd].
  assert (F' : need o (match k with KEvent => p_event_name | KField => p_field_name end) = Done j)
    by (destruct k; apply need_done; exact F).
  rewrite F'. cbn [bind]. keys. numor H. subst v. rewrite (proj2 (as_str_done _ _) T). reflexivity.
Qed.
Lemma trace_list_eq {A} (g : A -> N) s i k js (els : list (name * A)) :
  Forall2 (fun e x => exists o, e = JObj o /\
    has is_text o (match k with KEvent => str "eventName" | KField => str "fieldName" end) (fst x) /\
    has_or (is_num two8) 0 o (str "numberOfIpcTracingSlots") (g (snd x))) js els ->
  forall m, loop (trace_element s i k) js m = loop (trace_el s i k) (map (fun x => (fst x, g (snd x))) els) m.
Proof.
  induction 1 as [|e [n a] js els (o & -> & H1 & H2) _ IH]; intros m; [reflexivity|]. cbn [loop map fst snd] in *.
  rewrite (trace_element_eq s i k o n (g a) m H1 H2). destruct (trace_el s i k (n, g a) m); cbn [bind]; auto.
Qed.
Lemma trace_elements_eq o l s i k m : says_lola o l ->
  trace_elements o s i k m = loop (trace_el s i k) (ev_slots_of l k) m.
Proof.
  intros (_ & _ & _ & _ & [He _] & [Hf _] & _). unfold trace_elements. keys. destruct k; cbn [ev_slots_of].
  - destruct He as [(j & F & js & -> & H)|[F ->]].
    + rewrite F. cbn [as_list bind]. apply trace_list_eq.
      clear F. induction H as [|e x js els (eo & -> & S) _ IH]; constructor; [|exact IH]. exists eo.
      destruct S as (S1 & _ & _ & _ & _ & _ & S7). auto.
    + unfold missing in F. rewrite F. reflexivity.
  - destruct Hf as [(j & F & js & -> & H)|[F ->]].
    + rewrite F. cbn [as_list bind].
      apply (trace_list_eq (fun f => ev_tracing (fd_event f))).
      clear F. induction H as [|e x js els (eo & -> & S) _ IH]; constructor; [|exact IH]. exists eo.
      destruct S as (S1 & _ & _ & _ & _ & _ & S7 & _). auto.
    + unfold missing in F. rewrite F. reflexivity.
Qed.
Definition trace_step (on : bool) (x : name * inst_depl) (m : traced) : out traced :=
  if on then trace_inst x m else Done m.

(** * Instances *)

Lemma NoDup_app_snoc_fst {A} (l : list A) x : NoDup l -> ~ In x l -> NoDup (l ++ [x]).
Proof.
  induction l as [|y l IH]; cbn [app]; intros D N; [repeat constructor; auto|].
  inversion D as [|? ? D1 D2]; subst. constructor.
  - intros I. apply in_app_or in I. destruct I as [I|[<-|[]]]; [contradiction|]. apply N. left. reflexivity.
  - apply IH; [exact D2|]. intros I. apply N. right. exact I.
Qed.

Lemma asil_done o v : parse_asil o = Done v <->
  exists t, may_have is_text o (str "asil-level") t /\
    v = match t with
        | None => None
        | Some s => Some (if name_eqb s (str "QM") then QQM else if name_eqb s (str "B") then QB else QInvalid)
        end.
Proof.
  unfold parse_asil. keys. rewrite bind_done. setoid_rewrite (fun v => opt_done _ _ o _ v as_str_done). split.
  - intros (t & H & E). injection E as <-. eauto.
  - intros (t & H & ->). eauto.
Qed.
Definition is_level (q : quality) (v : option quality) : Prop := v = Some q /\ q <> QInvalid.
Lemma level_done o q : (exists v, parse_asil o = Done v /\ is_level q v) <->
  exists s, has is_text o (str "asil-level") s /\ level_name q s.
Proof.
  setoid_rewrite asil_done. split.
  - intros (v & (t & H & ->) & E & N). destruct t as [s|]; [|discriminate]. exists s. split; [exact H|].
    unfold level_name. destruct (name_eqb s (str "QM")) eqn:Q.
    { left. split; [congruence|apply name_eqb_eq, Q]. }
    destruct (name_eqb s (str "B")) eqn:B; [|exfalso; apply N; congruence].
    right. split; [congruence|apply name_eqb_eq, B].
  - intros (s & H & L). eexists. split; [exists (Some s); split; [exact H|reflexivity]|].
    destruct L as [[-> ->]|[-> ->]]; split; try reflexivity; discriminate.
Qed.
Lemma deployment_done on s i j ds m r : unique_keys j ->
  parse_deployment on s i j (ds, m) = Done r <->
  exists o d m', j = JObj o /\ says_deployment o d /\ in_service d = s /\ in_spec d = i /\
    trace_step on (i, d) m = Done m' /\ r = (ds ++ [d], m').
Proof.
  intros U. unfold parse_deployment, says_deployment. cbn [fst snd].
  assert (T : forall o l q m0, says_lola o l ->
    (if on then m1 <- trace_elements o (sv_name s) i KEvent m0 ;; trace_elements o (sv_name s) i KField m1 else Done m0)
    = trace_step on (i, mkInst s (BLola l) q i) m0).
  { intros o l q m0 H. unfold trace_step, trace_inst. cbn [fst snd in_binding in_service]. destruct on; [|reflexivity].
    rewrite (trace_elements_eq o l _ _ KEvent m0 H).
    destruct (loop (trace_el (sv_name s) i KEvent) (ev_slots_of l KEvent) m0); cbn [bind]; auto.
    apply trace_elements_eq, H. }
  split.
  - intros H. binds H. apply as_obj_done in E. subst j. rename x into o.
    assert (L : exists q, x1 = q /\ is_level q x0).
    { destruct x0 as [[| |]|]; try discriminate; injection E1 as <-; eexists; repeat split; discriminate. }
    destruct L as (q & -> & L).
    destruct (name_eqb x3 (str "SHM")) eqn:B; [|discriminate]. apply name_eqb_eq in B. subst x3.
    binds H. apply (lola_done _ _ U) in E. injection H as <-. conv. keys.
    rewrite (T o x q m E) in E4. eexists o, _, _. split; [reflexivity|].
    split; [|split; [|split; [|split; [exact E4|reflexivity]]]]; try reflexivity.
    cbn [in_asil in_binding]. split; [apply level_done; eauto|]. split; [eapply need_has; eassumption|eauto].
  - intros (o & d & m' & -> & ((t & Hs & Hl) & Hb & l & Eb & Hla) & Es & Ei & Et & ->).
    cbn [as_obj bind]. destruct d as [s' b q i']. cbn [in_service in_binding in_asil in_spec] in *. subst.
    destruct (proj2 (level_done o q) (ex_intro _ t (conj Hs Hl))) as (v & Ev & -> & Nq). rewrite Ev. cbn [bind].
    assert (Eq : match Some q with Some QQM => Done QQM | Some QB => Done QB | _ => @Terminates quality end = Done q)
      by (destruct q; [contradiction|reflexivity|reflexivity]).
    rewrite Eq. cbn [bind]. keys. texthas Hb. rewrite name_eqb_refl.
    rewrite (proj2 (lola_done _ _ U) Hla). cbn [bind]. cbn zeta. rewrite (T o l q m Hla), Et. reflexivity.
Qed.
Lemma loop_length on s i dl : forall ds m r, loop (parse_deployment on s i) dl (ds, m) = Done r ->
  length (fst r) = (length ds + length dl)%nat.
Proof.
  induction dl as [|j dl IH]; cbn [loop]; intros ds m r H.
  - injection H as <-. cbn [fst length]. lia.
  - binds H. destruct x as [ds' m']. apply IH in H. rewrite H.
    unfold parse_deployment in E. binds E. destruct (name_eqb x3 (str "SHM")); [|discriminate].
    binds E. injection E as <- <-. cbn [fst]. rewrite app_length. cbn [length]. lia.
Qed.
Lemma single_done on o s i m d m' : unique_keys (JObj o) ->
  parse_single on o s i m = Done (d, m') <->
  has (lists says_deployment) o (str "instances") [d] /\ in_service d = s /\ in_spec d = i /\
  trace_step on (i, d) m = Done m'.
Proof.
  intros U. unfold parse_single, has, lists. keys. split.
  - intros H. binds H. conv. subst x. rename x0 into dl. destruct x1 as [ds m1].
    pose proof (loop_length _ _ _ _ _ _ _ E1) as L. cbn [fst snd length] in *.
    destruct ds as [|d0 [|]]; try discriminate. injection H as -> ->.
    destruct dl as [|j [|]]; try discriminate. cbn [loop] in E1. apply bind_done in E1.
    destruct E1 as (r & E1 & Q). injection Q as ->.
    apply deployment_done in E1; [|eapply unique_item; [eapply unique_member; eassumption|left; reflexivity]].
    destruct E1 as (o' & d' & m0 & -> & S & Es & Ei & Et & Q). cbn [app] in Q. injection Q as -> ->.
    split; [|auto]. eexists. split; [exact E|]. eexists. split; [reflexivity|]. constructor; [|constructor]. eauto.
  - intros ((j & F & js & -> & H) & Es & Ei & Et).
    inversion H as [|e x js' l' (o' & -> & S) H']; subst. inversion H'; subst.
    rewrite (proj2 (need_done _ _ _) F). cbn [bind as_list loop].
    assert (X : parse_deployment on (in_service d) (in_spec d) (JObj o') ([], m) = Done ([d], m')).
    { apply deployment_done; [eapply unique_item; [eapply unique_member; eassumption|left; reflexivity]|].
      exists o', d, m'. auto 8. }
    rewrite X. reflexivity.
Qed.
Definition describes_inst_json (e : json) (x : name * inst_depl) : Prop := exists o, e = JObj o /\ says_instance o x.
Lemma instance_done on j acc m r : unique_keys j ->
  parse_instance on j (acc, m) = Done r <->
  exists x m', describes_inst_json j x /\ find (fst x) acc = None /\ trace_step on x m = Done m' /\ r = (acc ++ [x], m').
Proof.
  intros U. unfold parse_instance, describes_inst_json, says_instance, parse_specifier. cbn [fst snd]. split.
  - intros H. binds H. binds E0. conv. subst j. keys. destruct (create_specifier x4) as [i|] eqn:C; [|discriminate].
    injection E0 as ->. assert (x0 = x4) by (unfold create_specifier in C; destruct (is_short_name_valid x4); congruence).
    subst x4. destruct x2 as [d m']. apply single_done in E2; [|exact U]. destruct E2 as (S & Es & Ei & Et).
    apply service_done in E1. cbn [fst snd] in H. destruct (find x0 acc) eqn:F; [discriminate|]. injection H as <-.
    exists (x0, d), m'. cbn [fst snd]. split; [|auto]. exists x. split; [reflexivity|].
    split; [eapply need_has; eassumption|]. split; [exact C|]. split; [exact Ei|]. subst. auto.
  - intros ([i d] & m' & (o & -> & Hs & C & Ei & Hv & Hd) & F & Et & ->). cbn [fst snd] in *. cbn [as_obj bind].
    keys. destruct Hs as (j & Ej & Hs). rewrite (proj2 (need_done _ _ _) Ej). cbn [bind].
    rewrite (proj2 (as_str_done _ _) Hs). cbn [bind]. rewrite C. cbn [bind].
    rewrite (proj2 (service_done _ _) Hv). cbn [bind].
    rewrite (proj2 (single_done on o (in_service d) i m d m' U) (conj Hd (conj eq_refl (conj Ei Et)))).
    cbn [bind fst snd]. rewrite F. reflexivity.
Qed.
Lemma instances_loop on l : (forall j, In j l -> unique_keys j) -> forall acc m r, NoDup (map fst acc) ->
  loop (parse_instance on) l (acc, m) = Done r <->
  exists t m', r = (acc ++ t, m') /\ NoDup (map fst (acc ++ t)) /\ Forall2 describes_inst_json l t /\
    loop (trace_step on) t m = Done m'.
Proof.
  induction l as [|j l IH]; intros U acc m r D; cbn [loop].
  - split.
    + intros E. injection E as <-. exists [], m. rewrite app_nil_r. repeat split; auto.
    + intros (t & m' & -> & _ & H & E). inversion H; subst. cbn [loop] in E. injection E as ->.
      rewrite app_nil_r. reflexivity.
  - assert (U' : forall j, In j l -> unique_keys j) by (intros; apply U; right; assumption).
    rewrite bind_done. setoid_rewrite (fun r => instance_done on j acc m r (U j (or_introl eq_refl))). split.
    + intros (b & (x & m1 & S & F & Et & ->) & H).
      assert (D' : NoDup (map fst (acc ++ [x]))).
      { rewrite map_app. cbn [map]. apply NoDup_app_snoc_fst; [exact D|apply find_none, F]. }
      apply (IH U' _ _ _ D') in H. destruct H as (t & m' & -> & Dt & Ht & E). exists (x :: t), m'.
      rewrite <- app_assoc in *. cbn [app] in *. split; [reflexivity|]. split; [exact Dt|].
      split; [constructor; assumption|]. cbn [loop]. rewrite Et. cbn [bind]. exact E.
    + intros (t & m' & -> & Dt & Ht & E). inversion Ht as [|? x ? t' S Ht']; subst. cbn [loop] in E.
      apply bind_done in E. destruct E as (m1 & Et & E).
      assert (F : find (fst x) acc = None).
      { apply find_none. intros I. rewrite map_app in Dt. cbn [map] in Dt. apply NoDup_remove_2 in Dt.
        apply Dt. apply in_or_app. left. exact I. }
      eexists. split; [exists x, m1; repeat split; eassumption|].
      apply (IH U').
      * rewrite map_app. cbn [map]. apply NoDup_app_snoc_fst; [exact D|apply find_none, F].
      * exists t', m'. rewrite <- app_assoc. cbn [app]. auto.
Qed.

(** * Service types *)

Lemma id_done kn ki o x : parse_id kn ki o = Done x <-> says_id kn ki o x.
Proof.
  unfold parse_id, says_id. split.
  - intros H. binds H. injection H as <-. cbn [fst snd]. conv. split; eapply need_has; eassumption.
  - destruct x as [n i]. cbn [fst snd]. intros [(j & E & H) (j' & E' & H')].
    rewrite (proj2 (need_done _ _ _) E). cbn [bind]. rewrite (proj2 (need_done _ _ _) E'). cbn [bind].
    rewrite (proj2 (as_str_done _ _) H). cbn [bind]. rewrite (proj2 (as_num_done _ _ _) H'). reflexivity.
Qed.
Lemma distinct_nodup l : distinct l = true <-> NoDup l.
Proof.
  induction l as [|n l IH]; cbn [distinct].
  - split; [constructor|reflexivity].
  - rewrite Bool.andb_true_iff, IH, Bool.negb_true_iff. split.
    + intros [E D]. constructor; [|exact D]. intros I. assert (existsb (N.eqb n) l = true); [|congruence].
      apply existsb_exists. exists n. split; [exact I|apply N.eqb_refl].
    + intros D. inversion D as [|? ? I D']; subst. split; [|exact D'].
      destruct (existsb (N.eqb n) l) eqn:E; [|reflexivity]. apply existsb_exists in E. destruct E as (y & Iy & E).
      apply N.eqb_eq in E. subst y. contradiction.
Qed.
Lemma lola_type_done o t : parse_lola_type o = Done t <-> says_lola_type o t.
Proof.
  unfold parse_lola_type, says_lola_type. split.
  - intros H. binds H. destruct (distinct _) eqn:D in H; [|discriminate]. injection H as <-.
    cbn [lt_id lt_events lt_fields lt_methods]. conv. keys.
    apply (elements_done _ _ _ _ _ (id_done _ _)) in E1, E2, E3. apply distinct_nodup in D.
    split; [eapply need_has; eassumption|auto].
  - destruct t as [i e f m]. cbn [lt_id lt_events lt_fields lt_methods]. intros ((j & Fj & Hn) & He & Hf & Hm & D). keys.
    rewrite (proj2 (need_done _ _ _) Fj). cbn [bind]. rewrite (proj2 (as_num_done _ _ _) Hn). cbn [bind].
    rewrite (proj2 (elements_done _ _ _ _ _ (id_done _ _)) He). cbn [bind].
    rewrite (proj2 (elements_done _ _ _ _ _ (id_done _ _)) Hf). cbn [bind].
    rewrite (proj2 (elements_done _ _ _ _ _ (id_done _ _)) Hm). cbn [bind].
    rewrite (proj2 (distinct_nodup _) D). reflexivity.
Qed.
Lemma type_depl_done o t : parse_type_depl o = Done t <->
  exists bs, find (str "bindings") o = Some (JList bs) /\
    match t with
    | TBlank => bs = []
    | TLola t => exists b r, bs = JObj b :: r /\ has is_text b (str "binding") (str "SHM") /\ says_lola_type b t
    end.
Proof.
  unfold parse_type_depl. keys. split.
  - intros H. binds H. conv. subst x. exists x0. split; [exact E|]. destruct x0 as [|j r].
    + injection H as <-. reflexivity.
    + apply bind_done in H. destruct H as (b & Eb & H). apply bind_done in H. destruct H as (tj & Et & H).
      apply bind_done in H. destruct H as (n & En & H). destruct (name_eqb n (str "SHM")) eqn:B; [|discriminate].
      apply bind_done in H. destruct H as (l & El & H). injection H as <-. conv. subst j.
      apply name_eqb_eq in B. subst n. apply lola_type_done in El.
      exists b, r. split; [reflexivity|]. split; [eapply need_has; eassumption|exact El].
  - intros (bs & F & H). rewrite (proj2 (need_done _ _ _) F). cbn [bind as_list]. destruct t as [t|].
    + destruct H as (b & r & -> & Hb & Ht). cbn [as_obj bind]. texthas Hb. rewrite name_eqb_refl.
      rewrite (proj2 (lola_type_done _ _) Ht). reflexivity.
    + subst bs. reflexivity.
Qed.
Lemma find_type_none s m : find_type s m = None <-> ~ In s (map fst m).
Proof.
  induction m as [|[s' t] m IH]; cbn [find_type map fst In]; [tauto|].
  destruct (service_eqb s s') eqn:E.
  - apply service_eqb_eq in E. subst. split; [discriminate|intros N; exfalso; apply N; left; reflexivity].
  - rewrite IH. split; [|tauto]. intros N [->|I]; [|contradiction]. rewrite service_eqb_refl in E. discriminate.
Qed.
Definition describes_type_json (e : json) (x : service * type_depl) : Prop := exists o, e = JObj o /\ says_type o x.
Lemma type_done j m r : parse_type j m = Done r <->
  exists x, describes_type_json j x /\ ~ In (fst x) (map fst m) /\ r = m ++ [x].
Proof.
  unfold parse_type, describes_type_json, says_type. split.
  - intros H. binds H. conv. subst j. apply service_done in E0. apply type_depl_done in E1.
    destruct (find_type x0 m) eqn:F; [discriminate|]. injection H as <-. apply find_type_none in F.
    exists (x0, x1). cbn [fst snd]. split; [exists x; auto|auto].
  - intros ([s t] & (o & -> & Hs & Ht) & N & ->). cbn [fst snd] in *. cbn [as_obj bind].
    rewrite (proj2 (service_done _ _) Hs). cbn [bind]. rewrite (proj2 (type_depl_done _ _) Ht). cbn [bind].
    rewrite (proj2 (find_type_none _ _) N). reflexivity.
Qed.
Lemma types_loop l : forall acc r, NoDup (map fst acc) -> loop parse_type l acc = Done r <->
  exists t, r = acc ++ t /\ NoDup (map fst r) /\ Forall2 describes_type_json l t.
Proof.
  induction l as [|j l IH]; intros acc r D; cbn [loop].
  - split.
    + intros E. injection E as <-. exists []. rewrite app_nil_r. auto.
    + intros (t & -> & _ & H). inversion H; subst. rewrite app_nil_r. reflexivity.
  - rewrite bind_done. setoid_rewrite type_done. split.
    + intros (b & (x & S & N & ->) & H). apply IH in H.
      * destruct H as (t & -> & Dt & Ht). exists (x :: t). rewrite <- app_assoc in *. cbn [app] in *. auto.
      * rewrite map_app. cbn [map]. apply NoDup_app_snoc_fst; assumption.
    + intros (t & -> & Dt & Ht). inversion Ht as [|? x ? t' S Ht']; subst.
      assert (N : ~ In (fst x) (map fst acc)).
      { intros I. rewrite map_app in Dt. cbn [map] in Dt. apply NoDup_remove_2 in Dt.
        apply Dt. apply in_or_app. left. exact I. }
      eexists. split; [exists x; repeat split; eassumption|]. apply IH.
      * rewrite map_app. cbn [map]. apply NoDup_app_snoc_fst; assumption.
      * exists t'. rewrite <- app_assoc. cbn [app]. auto.
Qed.
Lemma types_done o m : parse_types o = Done m <->
  has (lists says_type) o (str "serviceTypes") m /\ NoDup (map fst m).
Proof.
  unfold parse_types, has, lists. keys. split.
  - intros H. binds H. conv. subst x. apply (types_loop _ [] _ (NoDup_nil _)) in H. destruct H as (t & -> & D & H).
    cbn [app] in *. split; [|exact D]. eexists. split; [exact E|]. eexists. split; [reflexivity|exact H].
  - intros [(j & F & js & -> & H) D]. rewrite (proj2 (need_done _ _ _) F). cbn [bind as_list].
    apply (types_loop _ [] _ (NoDup_nil _)). exists m. auto.
Qed.
Lemma instances_done on o r : unique_keys (JObj o) -> parse_instances on o = Done r <->
  has (lists says_instance) o (str "serviceInstances") (fst r) /\ NoDup (map fst (fst r)) /\
  loop (trace_step on) (fst r) [] = Done (snd r).
Proof.
  intros U. unfold parse_instances, has, lists. keys. split.
  - intros H. binds H. conv. subst x. pose proof (unique_member _ _ _ U E) as UL.
    apply (instances_loop on x0 (fun j I => unique_item _ _ UL I) [] [] _ (NoDup_nil _)) in H.
    destruct H as (t & m & -> & D & H & L). cbn [app fst snd] in *. split; [|auto].
    eexists. split; [exact E|]. eexists. split; [reflexivity|exact H].
  - destruct r as [t m]. cbn [fst snd]. intros ((j & F & js & -> & H) & D & L).
    rewrite (proj2 (need_done _ _ _) F). cbn [bind as_list]. pose proof (unique_member _ _ _ U F) as UL.
    apply (instances_loop on js (fun j I => unique_item _ _ UL I) [] [] _ (NoDup_nil _)).
    exists t, m. auto.
Qed.

(** * Global and tracing properties *)

Lemma queue_done o k d n : (exists v, parse_queue o k = Done v /\ value_or d v = n) <-> says_queue o k d n.
Proof.
  unfold parse_queue, says_queue, missing. keys. destruct (find (str "queue-size") o) as [j|].
  - split.
    + intros (v & H & <-). binds H. conv. subst j. right. eexists. split; [reflexivity|]. apply may_or, H.
    + intros [[E _]|(q & E & H)]; [discriminate|]. injection E as ->. cbn [as_obj bind].
      apply or_may in H. destruct H as (v & H & <-). exists v. split; [|reflexivity].
      apply (opt_done _ _ _ _ _ (as_num_done _)), H.
  - split.
    + intros (v & E & <-). injection E as <-. left. auto.
    + intros [[_ ->]|(q & E & _)]; [|discriminate]. exists None. auto.
Qed.
Lemma mode_done o m : (exists v, parse_mode o = Done v /\ value_or Simulation v = m) <->
  (exists s, has is_text o (str "shm-size-calc-mode") s /\ mode_name m s) \/
  missing o (str "shm-size-calc-mode") /\ m = Simulation.
Proof.
  unfold parse_mode, mode_name. keys. split.
  - intros (v & H & <-). binds H. apply (opt_done _ _ _ _ _ as_str_done) in E. destruct x as [s|]; cbn [may_have] in E.
    + left. exists s. split; [exact E|]. destruct (name_eqb s (str "SIMULATION")) eqn:S.
      { apply name_eqb_eq in S. left. split; [|exact S]. injection H as <-. reflexivity. }
      destruct (name_eqb s (str "ANALYSIS")) eqn:A; [|discriminate].
      apply name_eqb_eq in A. right. split; [|exact A]. injection H as <-. reflexivity.
    + right. split; [exact E|]. injection H as <-. reflexivity.
  - intros [(s & H & M)|[H ->]].
    + exists (Some m). split; [|reflexivity].
      rewrite (proj2 (opt_done _ _ o _ (Some s) as_str_done) H). cbn [bind].
      destruct M as [[-> ->]|[-> ->]]; [rewrite name_eqb_refl; reflexivity|].
      change (name_eqb (str "ANALYSIS") (str "SIMULATION")) with false. rewrite name_eqb_refl. reflexivity.
    + exists None. split; [|reflexivity].
      rewrite (proj2 (opt_done _ _ o _ None as_str_done) H). reflexivity.
Qed.
Lemma global_level_done o q :
  (x <- parse_asil o ;; match x with None => Done QQM | Some QInvalid => Terminates | Some y => Done y end) = Done q <->
  (exists s, has is_text o (str "asil-level") s /\ level_name q s) \/ missing o (str "asil-level") /\ q = QQM.
Proof.
  rewrite <- level_done, bind_done. setoid_rewrite asil_done. split.
  - intros (v & (t & H & E) & Q). destruct t as [s|].
    + left. exists v. split; [exists (Some s); auto|]. destruct v as [[| |]|]; try discriminate;
        injection Q as <-; split; try reflexivity; discriminate.
    + right. subst v. injection Q as <-. auto.
  - intros [(v & (t & H & E) & -> & N)|[H ->]].
    + exists (Some q). split; [eauto|]. destruct q; [contradiction|reflexivity|reflexivity].
    + exists None. split; [exists None; auto|reflexivity].
Qed.
Lemma global_done o g : parse_global o = Done g <->
  section says_global (mkGlobal QQM None 10 10 20 Simulation) o (str "global") g.
Proof.
  unfold parse_global, section, missing, says_global. keys. destruct (find (str "global") o) as [j|].
  - split.
    + intros H. binds H. injection H as <-. conv. subst j. right. eexists. split; [reflexivity|].
      cbn [g_level g_app g_rx_qm g_rx_b g_tx_b g_mode].
      split; [apply global_level_done, bind_done; eauto|]. split; [assumption|].
      split; [apply queue_done; eauto|]. split; [apply queue_done; eauto|]. split; [apply queue_done; eauto|].
      apply mode_done. eauto.
    + intros [[E _]|(x & E & Hl & Ha & Hq & Hb & Ht & Hm)]; [discriminate|]. injection E as ->.
      apply global_level_done, bind_done in Hl. destruct Hl as (v & Hv & Hl).
      apply queue_done in Hq, Hb, Ht. apply mode_done in Hm.
      destruct Hq as (vq & Hq & Eq), Hb as (vb & Hb & Eb), Ht as (vt & Ht & Et), Hm as (vm & Hm & Em).
      cbn [as_obj bind]. rewrite Hv. cbn [bind]. rewrite Hl. cbn [bind].
      rewrite Hq. cbn [bind]. rewrite Hb. cbn [bind]. rewrite Ht. cbn [bind]. rewrite Hm. cbn [bind].
      numopt Ha. destruct g as [gl ga gq gb gt gm]. cbn [g_level g_app g_rx_qm g_rx_b g_tx_b g_mode] in *. subst. reflexivity.
  - split.
    + intros E. injection E as <-. left. auto.
    + intros [[_ ->]|(x & E & _)]; [reflexivity|discriminate].
Qed.
Lemma tracing_done o t : parse_tracing o = Done t <->
  section says_trace (mkTrace false [] []) o (str "tracing") t.
Proof.
  unfold parse_tracing, section, missing, says_trace. keys. destruct (find (str "tracing") o) as [j|].
  - split.
    + intros H. binds H. injection H as <-. conv. subst j. right. eexists. split; [reflexivity|].
      cbn [t_on t_app t_filter]. split; [apply may_or; assumption|]. split; [eapply need_has; eassumption|].
      apply may_or. assumption.
    + intros [[E _]|(x & E & Ho & Ha & Hf)]; [discriminate|]. injection E as ->. cbn [as_obj bind].
      flagopt Ho. texthas Ha. apply or_may in Hf. destruct Hf as (vf & Hf & Ef).
      rewrite (proj2 (opt_done _ _ _ _ _ as_str_done) Hf). cbn [bind]. destruct t as [to ta tf].
      cbn [t_on t_app t_filter] in *. subst. reflexivity.
  - split.
    + intros E. injection E as <-. left. auto.
    + intros [[_ ->]|(x & E & _)]; [reflexivity|discriminate].
Qed.

(** * The configuration *)

Lemma read_conf_done j p : unique_keys j ->
  read_conf j = Done p <->
  says j (pa_types p) (pa_insts p) (pa_global p) (pa_trace p) /\
  loop (trace_step (t_on (pa_trace p))) (pa_insts p) [] = Done (pa_traced p).
Proof.
  intros U. unfold read_conf, says. split.
  - intros H. binds H. injection H as <-. conv. subst j. rename x into o.
    cbn [pa_types pa_insts pa_global pa_trace pa_traced].
    apply tracing_done in E0. apply types_done in E1. apply instances_done in E2; [|exact U]. apply global_done in E3.
    destruct E1 as [T1 T2]. destruct E2 as (I1 & I2 & I3). split; [|exact I3]. exists o. auto 8.
  - destruct p as [types insts g t tr]. cbn [pa_types pa_insts pa_global pa_trace pa_traced].
    intros [(o & -> & T1 & T2 & I1 & I2 & G & T) L]. cbn [as_obj bind].
    rewrite (proj2 (tracing_done _ _) T). cbn [bind]. rewrite (proj2 (types_done _ _) (conj T1 T2)). cbn [bind].
    rewrite (proj2 (instances_done (t_on t) o (insts, tr) U) (conj I1 (conj I2 L))). cbn [bind].
    rewrite (proj2 (global_done _ _) G). reflexivity.
Qed.
