(** * The trace filter: C94 *)
From Coq Require Import String Permutation.
From Verif Require Import Base NamesModel DeplModel ConfModel DeplProofs ConfProps FilterModel FilterSpec FilterProofs.
Open Scope N_scope.

Lemma cut_plain s : no_nul s -> cut s = s.
Proof.
  induction s as [|c s IH]; [reflexivity|]. intros H. cbn [cut]. destruct (c =? 0) eqn:E.
  - apply N.eqb_eq in E. exfalso. apply H. left. exact E.
  - f_equal. apply IH. intros Q. apply H. right. exact Q.
Qed.
Lemma configured_in c s e k : configured c s e k <-> In s (type_names c) /\ In e (element_names c s k).
Proof.
  rewrite in_element_names, in_type_names. split.
  - intros (sv & t & I & E & J). split; [eauto|]. exists sv, (TLola t). destruct k; auto.
  - intros [_ (sv & t & I & E & J)]. destruct t as [t|]; [|destruct J]. exists sv, t. auto.
Qed.
Lemma find_slots_list l k e n : find e (ev_slots_of l k) = Some n <->
  match k with
  | KEvent => exists ev, find e (li_events l) = Some ev /\ ev_tracing ev = n
  | KField => exists fd, find e (li_fields l) = Some fd /\ ev_tracing (fd_event fd) = n
  end.
Proof.
  assert (G : forall A (g : A -> N) (m : list (name * A)), find e (map (fun x => (fst x, g (snd x))) m) = Some n <->
    exists a, find e m = Some a /\ g a = n).
  { intros A g m. induction m as [|[k0 a] m IH]; cbn [map find fst snd]; [split; [discriminate|intros (a & X & _); discriminate]|].
    destruct (name_eqb e k0); [|exact IH]. split; [intros X; injection X as X; eauto|]. intros (b & X & <-). injection X as <-. reflexivity. }
  destruct k; [apply (G event_depl ev_tracing)|apply (G field_depl (fun f => ev_tracing (fd_event f)))].
Qed.
Lemma slots_list_nodup l k : NoDup (map fst (li_events l)) -> NoDup (map fst (li_fields l)) -> NoDup (map fst (ev_slots_of l k)).
Proof. intros A B. destruct k; cbn [ev_slots_of]; rewrite map_map; cbn; assumption. Qed.

Lemma load_inv file c f : load true (Some file) c = Done (Some f) ->
  exists tr, traced_of (all_insts c) = Done tr /\ parse c tr file = Done f.
Proof.
  intros H. unfold load in H. apply bind_done in H. destruct H as [tr [T H]]. apply bind_done in H. destruct H as [f0 [P H]].
  injection H as <-. eauto.
Qed.
Lemma spec_some i : create_specifier i = Some i -> is_short_name_valid i = true.
Proof. unfold create_specifier. destruct (is_short_name_valid i); [auto|discriminate]. Qed.

Definition traces (c : conf) (i s e : name) (k : kind) : Prop := exists n, 0 < n /\ deployed_slots c i s e k n.
Lemma traced_traces c tr s e k i : proper c -> traced_of (all_insts c) = Done tr ->
  (In i (instances_of c s) /\ is_traced tr (mkEl s e k) i = Done true) <-> traces c i s e k.
Proof.
  intros W T. pose proof (traced_of_holds _ _ T (mkEl s e k) i) as H. unfold traces, deployed_slots. split.
  - intros [_ I]. apply is_traced_true, H in I. destruct I as [[i0 d] [I (l & n & -> & B & S & J & L)]].
    cbn [fst snd e_service e_name e_kind] in *. exists n. split; [exact L|]. exists d, l. repeat (split; [assumption|]).
    destruct (proj2 (W _ _ I) l B) as (E1 & E2). apply find_slots_list. apply in_find; [apply slots_list_nodup; assumption|exact J].
  - intros (n & L & d & l & I & S & B & F). destruct (W _ _ I) as (V & _). split; [apply in_instances_of; eauto|].
    apply is_traced_holds; [apply spec_some, V|]. apply H. exists (i, d). split; [exact I|]. exists l, n.
    cbn [fst snd e_service e_name e_kind]. apply find_slots_list in F. apply find_in in F. auto.
Qed.

Lemma load_on file c f : load true (Some file) c = Done (Some f) -> proper c -> plain c -> tidy f /\ forall s e i p,
  on f s e i p <-> asks file s e p /\ configured c s e (kind_of p) /\ traces c i s e (kind_of p).
Proof.
  intros H W P. apply load_inv in H. destruct H as [tr [T H]]. apply parse_on in H. destruct H as [K H]. split; [exact K|].
  intros s e i p. rewrite H. split.
  - intros (s0 & e0 & -> & -> & A & B1 & B2 & B3 & B4). assert (C : configured c s0 e0 (kind_of p)) by (apply configured_in; auto).
    destruct (P _ _ _ C) as [Z1 Z2]. rewrite (cut_plain _ Z1), (cut_plain _ Z2). split; [exact A|]. split; [exact C|].
    apply (traced_traces c tr s0 e0 _ i W T). auto.
  - intros (A & C & X). exists s, e. destruct (P _ _ _ C) as [Z1 Z2]. rewrite (cut_plain _ Z1), (cut_plain _ Z2).
    apply configured_in in C. apply (traced_traces c tr s e _ i W T) in X. tauto.
Qed.

(** C94. When the filter file was read, a trace point is on for an event or field of an instance
    exactly when the file asks for it, the service type has the event or field, and the deployment
    of the instance has tracing slots for it; for names without NUL characters. *)
Theorem C94_enabled_partial file c f : load true (Some file) c = Done (Some f) -> proper c -> plain c ->
  forall s e i p, is_enabled f s e i p = Done true <->
    asks file s e p /\ configured c s e (kind_of p) /\ exists n, 0 < n /\ deployed_slots c i s e (kind_of p) n.
Proof. intros H W P s e i p. rewrite on_enabled. apply (load_on file c f H W P). Qed.

(** For names of at most 1022 bytes there is an answer *)
Theorem C94_answers_partial f s e i p : N.of_nat (length s + length e) <= 1022 -> exists b, is_enabled f s e i p = Done b.
Proof.
  intros L. unfold is_enabled. assert (H : hashable (mkEl s e (kind_of p), code p) = true).
  { unfold hashable, max_buffer. cbn [fst e_service e_name]. apply N.leb_le. lia. }
  rewrite H. eauto.
Qed.

(** ** Reading never ends the process *)

Lemma loop_total {A B} (g : A -> B -> out B) l b : (forall a x, In a l -> exists y, g a x = Done y) -> exists y, loop g l b = Done y.
Proof.
  revert b. induction l as [|a l IH]; intros b H; cbn [loop]; [eauto|].
  destruct (H a b (or_introl eq_refl)) as [y E]. rewrite E. cbn [bind]. apply IH. intros x z I. apply H. right. exact I.
Qed.
Lemma set_traced_total k i m : ~ tr_holds m k i -> exists m', set_traced k i m = Done m'.
Proof.
  induction m as [|[q v] m IH]; intros H; cbn [set_traced]; [eauto|]. unfold tr_holds in H. cbn [find_el] in H.
  destruct (element_eqb k q).
  - destruct (mem i v) eqn:M; [|eauto]. apply mem_in in M. exfalso. apply H. eauto.
  - destruct (IH H) as [m' E]. rewrite E. cbn [bind]. eauto.
Qed.
Lemma trace_els_total s i k l m : NoDup (map fst l) -> (forall e n, In (e, n) l -> ~ tr_holds m (mkEl s e k) i) ->
  exists m', loop (trace_el s i k) l m = Done m'.
Proof.
  revert m. induction l as [|[e n] l IH]; intros m D H; cbn [loop]; [eauto|]. cbn [map fst] in D. inversion D as [|? ? D1 D2]; subst.
  assert (X : exists m1, trace_el s i k (e, n) m = Done m1).
  { unfold trace_el. cbn [fst snd]. destruct (0 <? n); [|eauto]. apply set_traced_total. exact (H e n (or_introl eq_refl)). }
  destruct X as [m1 E]. rewrite E. cbn [bind]. apply IH; [exact D2|]. intros e' n' I Q.
  apply (trace_el_adds _ _ _ _ _ _ E) in Q. destruct Q as [Q|(_ & Q & _)].
  - exact (H e' n' (or_intror I) Q).
  - cbn [fst] in Q. injection Q as ->. apply D1. change e with (fst (e, n')). apply in_map. exact I.
Qed.
Lemma traced_total c : proper c -> exists tr, traced_of (all_insts c) = Done tr.
Proof.
  intros W. unfold traced_of.
  assert (N : NoDup (map fst (all_insts c))) by apply flat_insts_nodup.
  assert (H : forall i d el, In (i, d) (all_insts c) -> ~ tr_holds [] el i) by (intros i d el _ [l [Q _]]; discriminate).
  assert (W' : forall x l, In x (all_insts c) -> in_binding (snd x) = BLola l -> NoDup (map fst (li_events l)) /\ NoDup (map fst (li_fields l))).
  { intros [i d] l I B. exact (proj2 (W i d I) l B). }
  clear W. revert N H W'. generalize (all_insts c) as l. generalize (@nil (element * list name)) as m.
  intros m l. revert m. induction l as [|[i d] l IH]; intros m N H W; cbn [loop]; [eauto|].
  cbn [map fst] in N. inversion N as [|? ? N1 N2]; subst.
  assert (X : exists m1, trace_inst (i, d) m = Done m1).
  { unfold trace_inst. cbn [fst snd]. destruct (in_binding d) as [b|] eqn:B; [|eauto].
    destruct (W (i, d) b (or_introl eq_refl) B) as [E1 E2].
    destruct (trace_els_total (sv_name (in_service d)) i KEvent (ev_slots_of b KEvent) m (slots_list_nodup b KEvent E1 E2)) as [m1 M1].
    { intros e n _. exact (H i d _ (or_introl eq_refl)). }
    rewrite M1. cbn [bind]. apply (trace_els_total _ i KField _ m1 (slots_list_nodup b KField E1 E2)).
    intros e n _ Q. apply (tr_loop _ _ _ _ _ (trace_el_adds _ _ _) M1) in Q. destruct Q as [Q|(x & _ & _ & Q & _)].
    - exact (H i d _ (or_introl eq_refl) Q).
    - discriminate. }
  destruct X as [m1 M1]. rewrite M1. cbn [bind]. apply IH; [exact N2| |].
  - intros i' d' el I Q. apply (trace_inst_adds _ _ _ M1) in Q. destruct Q as [Q|(b & n & -> & _)].
    + exact (H i' d' el (or_intror I) Q).
    + cbn [fst] in N1. apply N1. change i with (fst (i, d')). apply in_map. exact I.
  - intros x b I. apply W. right. exact I.
Qed.

Local Opaque str.
Lemma cut_length s : (length (cut s) <= length s)%nat.
Proof. induction s as [|c s IH]; cbn; [lia|]. destruct (c =? 0); cbn; lia. Qed.
Lemma add_point_total s e i p f : N.of_nat (length s + length e) <= 1022 -> code p <> 0 -> exists f', add_point s e i p f = Done f'.
Proof.
  intros L C. unfold add_point. apply N.eqb_neq in C. rewrite C.
  assert (H : hashable (mkEl (cut s) (cut e) (kind_of p), code p) = true).
  { unfold hashable, max_buffer. cbn [fst e_service e_name]. pose proof (cut_length s). pose proof (cut_length e). apply N.leb_le. lia. }
  rewrite H. eauto.
Qed.
Lemma flags_set o k : flags o -> k <> str "shortname" -> exists b, is_set o k = Done b.
Proof.
  intros F K. unfold is_set. destruct (find k o) as [j|] eqn:E; [|eauto]. destruct (F k j E K) as [b ->]. eauto.
Qed.
Definition good_entry (x : name * point) : Prop := fst x <> str "shortname" /\ code (snd x) <> 0.
Lemma adds_total o s e i t f : flags o -> N.of_nat (length s + length e) <= 1022 -> (forall x, In x t -> good_entry x) ->
  exists f', loop (add_if o s e i) t f = Done f'.
Proof.
  intros F L G. apply loop_total. intros [k p] g I. destruct (G _ I) as [K C]. unfold add_if. cbn [fst snd] in *.
  destruct (flags_set o k F K) as [b ->]. cbn [bind]. destruct b; [apply add_point_total; assumption|eauto].
Qed.
Lemma warns_total o f : flags o -> exists f', loop (warn o) not_implemented f = Done f'.
Proof.
  intros F. apply loop_total. intros k g I. unfold warn.
  assert (K : k <> str "shortname") by (destruct I as [<-|[<-|[]]]; vm_compute; discriminate).
  destruct (flags_set o k F K) as [b ->]. cbn [bind]. eauto.
Qed.
Local Transparent str.
Lemma good_tables x : In x px_event_table \/ In x sk_event_table \/ In x px_notifier_table \/ In x sk_notifier_table \/
  In x px_getter_table \/ In x sk_getter_table \/ In x px_setter_table \/ In x sk_setter_table -> good_entry x.
Proof.
  intros H. unfold good_entry.
  destruct H as [H|[H|[H|[H|[H|[H|[H|H]]]]]]];
    (repeat (destruct H as [<-|H]; [split; vm_compute; discriminate|]); destruct H).
Qed.
Local Opaque str.
Lemma sub_total o sub s e i t f : optional o sub (object_with flags) -> N.of_nat (length s + length e) <= 1022 ->
  (forall x, In x t -> good_entry x) -> exists f', add_sub o sub s e i t f = Done f'.
Proof.
  intros O L G. unfold add_sub. unfold optional in O. destruct (find sub o) as [j|]; [|eauto].
  destruct O as (b & -> & F). cbn [as_obj bind]. apply adds_total; assumption.
Qed.
Lemma is_traced_total c tr k i : proper c -> traced_of (all_insts c) = Done tr ->
  (exists d, In (i, d) (all_insts c) /\ create_specifier i = Some i) -> exists b, is_traced tr k i = Done b.
Proof. intros W T (d & I & S). unfold is_traced. destruct (find_el k tr); [|eauto]. rewrite S. eauto. Qed.
(** C94. A filter file of the right shape is read without ending the process, for names that are
    together at most 1022 bytes long. *)
Theorem C94_read_partial file c : proper c -> short c -> file_shape file ->
  exists f, load true (Some file) c = Done (Some f).
Proof.
  intros W SH (o & -> & O). unfold load. destruct (traced_total c W) as [tr T]. rewrite T. cbn [bind].
  unfold parse. cbn [as_obj bind]. unfold optional in O. unfold parse_list.
  assert (G : forall l f, (forall j, In j l -> service_shape j) -> exists f', loop (parse_service c tr) l f = Done f').
  { intros l f Q. apply loop_total. intros j g I. destruct (Q j I) as (svc & -> & S & EV & FD).
    unfold parse_service. cbn [as_obj bind]. unfold optional in S. destruct (find (str "shortname_path") svc) as [v|]; [|eauto].
    destruct S as [s ->]. cbn [as_str bind]. destruct (mem s (type_names c)) eqn:M; [|eauto]. apply mem_in in M.
    assert (IN : forall i, In i (instances_of c s) -> forall k, exists b, is_traced tr k i = Done b).
    { intros i Ii k. apply in_instances_of in Ii. destruct Ii as [d [Id _]]. apply (is_traced_total c); auto. exists d. split; [exact Id|apply (W i d Id)]. }
    assert (LEN : forall k e, In e (element_names c s k) -> N.of_nat (length s + length e) <= 1022).
    { intros k e Ie. apply (SH s e k). apply configured_in. auto. }
    assert (E1 : exists f1, parse_list (str "events") (parse_event tr (element_names c s KEvent) (instances_of c s) s) svc g = Done f1).
    { unfold parse_list. unfold optional in EV. destruct (find (str "events") svc) as [v|]; [|eauto].
      destruct EV as (els & -> & EV). cbn [as_list bind]. apply loop_total. intros je ge Ie.
      destruct (EV je Ie) as (oe & -> & SN & FL). unfold parse_event. cbn [as_obj bind]. unfold optional in SN.
      destruct (find (str "shortname") oe) as [ve|]; [|eauto]. destruct SN as [e ->]. cbn [as_str bind].
      destruct (mem e (element_names c s KEvent)) eqn:Me; [|eauto]. apply mem_in, LEN in Me. apply loop_total. intros i gi Ii.
      unfold event_inst. destruct (IN i Ii (mkEl s e KEvent)) as [b ->]. cbn [bind]. destruct b; [|eauto].
      destruct (adds_total oe s e i px_event_table gi FL Me) as [f1 ->]; [intros x Ix; apply good_tables; auto|]. cbn [bind].
      destruct (adds_total oe s e i sk_event_table f1 FL Me) as [f2 ->]; [intros x Ix; apply good_tables; auto|]. cbn [bind].
      apply warns_total, FL. }
    destruct E1 as [f1 ->]. cbn [bind]. unfold parse_list. unfold optional in FD. destruct (find (str "fields") svc) as [v|]; [|eauto].
    destruct FD as (els & -> & FD). cbn [as_list bind]. apply loop_total. intros je ge Ie.
    destruct (FD je Ie) as (oe & -> & SN & FL). unfold parse_field. cbn [as_obj bind]. unfold optional in SN.
    destruct (find (str "shortname") oe) as [ve|]; [|eauto]. destruct SN as [e ->]. cbn [as_str bind].
    destruct (mem e (element_names c s KField)) eqn:Me; [|eauto]. apply mem_in, LEN in Me. apply loop_total. intros i gi Ii.
    unfold field_inst. destruct (IN i Ii (mkEl s e KField)) as [b ->]. cbn [bind]. destruct b; [|eauto].
    assert (L1 := FL (str "notifier") (or_introl eq_refl)). assert (L2 := FL (str "getter") (or_intror (or_introl eq_refl))).
    assert (L3 := FL (str "setter") (or_intror (or_intror (or_introl eq_refl)))).
    destruct (sub_total oe (str "notifier") s e i px_notifier_table gi L1 Me) as [g1 ->]; [intros x Ix; apply good_tables; auto|]. cbn [bind].
    destruct (sub_total oe (str "notifier") s e i sk_notifier_table g1 L1 Me) as [g2 ->]; [intros x Ix; apply good_tables; auto 6|]. cbn [bind].
    destruct (sub_total oe (str "getter") s e i px_getter_table g2 L2 Me) as [g3 ->]; [intros x Ix; apply good_tables; auto 8|]. cbn [bind].
    destruct (sub_total oe (str "getter") s e i sk_getter_table g3 L2 Me) as [g4 ->]; [intros x Ix; apply good_tables; auto 10|]. cbn [bind].
    destruct (sub_total oe (str "setter") s e i px_setter_table g4 L3 Me) as [g5 ->]; [intros x Ix; apply good_tables; auto 12|]. cbn [bind].
    destruct (sub_total oe (str "setter") s e i sk_setter_table g5 L3 Me) as [g6 ->]; [intros x Ix; apply good_tables; auto 14|]. cbn [bind].
    unfold warn_sub. unfold optional in L1. destruct (find (str "notifier") oe) as [jn|]; [|eauto]. destruct L1 as (b & -> & Fb).
    cbn [as_obj bind]. apply warns_total, Fb. }
  destruct (find (str "services") o) as [v|]; [|cbn [bind]; eauto]. destruct O as (l & -> & Q). cbn [as_list bind].
  destruct (G l empty Q) as [f ->]. cbn [bind]. eauto.
Qed.
Local Transparent str.

(** ** Slots *)

Lemma deployed_slots_inst c i s e k n : proper c -> deployed_slots c i s e k n ->
  slots_of_inst c (mkEl s e k) k i = Done n.
Proof.
  intros W (d & l & I & _ & B & F). unfold slots_of_inst. rewrite (proj1 (W i d I)). apply in_all_insts in I. rewrite I, B.
  cbn [e_name]. apply find_slots_list in F. rewrite F. reflexivity.
Qed.
Lemma perm_neat m m' : Permutation m m' -> neat m -> neat m'.
Proof.
  intros P [D S]. split; [exact (Permutation_NoDup (Permutation_map fst P) D)|].
  intros k l I. apply (S k l). apply (Permutation_in _ (Permutation_sym P) I).
Qed.
Lemma reordered_map p f g : reordered f g -> Permutation (map_of p f) (map_of p g).
Proof. intros (A & B & C & D). destruct p; assumption. Qed.
Lemma keeps_code p : keeps p <-> exists n, code p = n /\ keeps_sample (match p with SkEvent _ | SkField _ => true | _ => false end) n = true.
Proof.
  unfold keeps. split.
  - intros [->|[->|[->| ->]]]; eexists; split; reflexivity.
  - intros (n & <- & H). destruct p as [p|p|p|p]; try discriminate H; destruct p; try discriminate H; auto.
Qed.

Section Slots.
Variables (file : json) (c : conf) (f g : filter).
Hypothesis (L : load true (Some file) c = Done (Some f)) (W : proper c) (P : plain c) (R : reordered f g).

Lemma entry_on p el n l i : In ((el, n), l) (map_of p g) -> code p = n -> In i l <-> on f (e_service el) (e_name el) i p.
Proof.
  intros I C. destruct (load_on _ _ _ L W P) as [T _]. destruct (T p) as [[D S] K].
  apply (Permutation_in _ (Permutation_sym (reordered_map p f g R))) in I.
  assert (Kin : In (el, n) (map fst (map_of p f))) by (change (el, n) with (fst ((el, n), l)); apply in_map; exact I).
  destruct (K _ Kin) as [K1 K2]. cbn [fst] in K1.
  assert (E : key_of (e_service el) (e_name el) p = (el, n)) by (unfold key_of; rewrite C, <- K1; destruct el; reflexivity).
  unfold on. rewrite E. split.
  - intros J. split; [exact K2|]. exists l. split; [apply find_key_in; assumption|exact J].
  - intros [_ [l' [F J]]]. apply find_key_in in F; [|exact D].
    assert (Q : find_key (el, n) (map_of p f) = Some l) by (apply find_key_in; assumption).
    apply find_key_in in F; [|exact D]. congruence.
Qed.
Lemma entry_kind p el n l : In ((el, n), l) (map_of p g) -> e_kind el = kind_of p /\ l <> [] /\ NoDup l.
Proof.
  intros I. destruct (load_on _ _ _ L W P) as [T _]. destruct (T p) as [[D S] K].
  apply (Permutation_in _ (Permutation_sym (reordered_map p f g R))) in I. split.
  - apply (K (el, n)). change (el, n) with (fst ((el, n), l)). apply in_map. exact I.
  - destruct (S _ _ I). auto.
Qed.
Lemma on_entry p s e i : on f s e i p -> exists l, In ((mkEl s e (kind_of p), code p), l) (map_of p g) /\ In i l.
Proof.
  intros [_ [l [F I]]]. destruct (load_on _ _ _ L W P) as [T _]. destruct (T p) as [[D S] K].
  apply find_key_in in F; [|exact D]. exists l. split; [|exact I].
  exact (Permutation_in _ (reordered_map p f g R) F).
Qed.

Definition amount (q : element * name) : N :=
  match slots_of_inst c (fst q) (e_kind (fst q)) (snd q) with Done n => n | _ => 0 end.
Lemma on_amount p s e i : on f s e i p -> deployed_slots c i s e (kind_of p) (amount (mkEl s e (kind_of p), i)) /\
  0 < amount (mkEl s e (kind_of p), i) /\ slots_of_inst c (mkEl s e (kind_of p)) (kind_of p) i = Done (amount (mkEl s e (kind_of p), i)).
Proof.
  intros H. destruct (load_on _ _ _ L W P) as [_ T]. apply T in H. destruct H as (_ & _ & n & Ln & D).
  pose proof (deployed_slots_inst c i s e (kind_of p) n W D) as E. unfold amount. cbn [fst snd e_kind]. rewrite E. auto.
Qed.

Definition all_pairs : list (element * name) := counted (f_se g) [] ++ counted (f_sf g) (seen_after (f_se g) []).
Lemma sample_point (k : kind) n : keeps_sample true n = true -> exists p, keeps p /\ kind_of p = k /\ code p = n /\
  (match k, p with KEvent, SkEvent _ | KField, SkField _ => True | _, _ => False end).
Proof.
  intros H. unfold keeps_sample in H. cbn [andb] in H. apply Bool.orb_true_iff in H. unfold keeps.
  destruct H as [H|H]; apply N.eqb_eq in H; subst n; destruct k;
    [exists (SkEvent SeSend)|exists (SkField SfUpdate)|exists (SkEvent SeSendAlloc)|exists (SkField SfUpdateAlloc)]; cbn; auto 8.
Qed.
Lemma uniform k m el : m = map_of (match k with KEvent => SkEvent SeSend | KField => SkField SfUpdate end) g ->
  forall n1 l1 n2 l2, keeps_sample true n1 = true -> keeps_sample true n2 = true ->
     In ((el, n1), l1) m -> In ((el, n2), l2) m -> forall j, In j l1 -> In j l2.
Proof.
  intros -> n1 l1 n2 l2 K1 K2 I1 I2 j J.
  destruct (sample_point k n1 K1) as (p1 & _ & Q1 & C1 & M1), (sample_point k n2 K2) as (p2 & _ & Q2 & C2 & M2).
  assert (I1' : In ((el, n1), l1) (map_of p1 g)) by (destruct k, p1; try contradiction; exact I1).
  assert (I2' : In ((el, n2), l2) (map_of p2 g)) by (destruct k, p2; try contradiction; exact I2).
  apply (entry_on p1 el n1 l1 j I1' C1) in J. apply (entry_on p2 el n2 l2 j I2' C2).
  destruct (entry_kind p2 el n2 l2 I2') as (_ & NE & _). destruct l2 as [|j2 l2]; [contradiction|].
  pose proof (proj1 (entry_on p2 el n2 _ j2 I2' C2) (or_introl eq_refl)) as J2.
  destruct (load_on _ _ _ L W P) as [_ T]. apply T in J. apply T in J2. apply T.
  rewrite Q1 in J. rewrite Q2 in *. tauto.
Qed.
Lemma in_all_pairs s e k i : In (mkEl s e k, i) all_pairs <-> exists p, keeps p /\ kind_of p = k /\ on f s e i p.
Proof.
  assert (U : forall k0 el, forall n1 l1 n2 l2, keeps_sample true n1 = true -> keeps_sample true n2 = true ->
     In ((el, n1), l1) (map_of (match k0 with KEvent => SkEvent SeSend | KField => SkField SfUpdate end) g) ->
     In ((el, n2), l2) (map_of (match k0 with KEvent => SkEvent SeSend | KField => SkField SfUpdate end) g) ->
     forall j, In j l1 <-> In j l2).
  { intros k0 el n1 l1 n2 l2 K1 K2 I1 I2 j. split.
    - intros J. exact (uniform k0 _ el eq_refl n1 l1 n2 l2 K1 K2 I1 I2 j J).
    - intros J. exact (uniform k0 _ el eq_refl n2 l2 n1 l1 K2 K1 I2 I1 j J). }
  assert (G : forall k0 m seen, m = map_of (match k0 with KEvent => SkEvent SeSend | KField => SkField SfUpdate end) g ->
     (forall el, In el seen -> e_kind el <> k0) ->
     (In (mkEl s e k, i) (counted m seen) <-> k = k0 /\ exists p, keeps p /\ kind_of p = k0 /\ on f s e i p)).
  { intros k0 m seen -> SE. split.
    - intros H. apply counted_in in H. destruct H as [_ (n & l & K & I & J)].
      destruct (sample_point k0 n K) as (p & Kp & Q & C & M).
      assert (I' : In ((mkEl s e k, n), l) (map_of p g)) by (destruct k0, p; try contradiction; exact I).
      pose proof (proj1 (entry_kind p _ _ _ I')) as Kk. cbn in Kk. split; [congruence|]. exists p.
      apply (entry_on p _ n l i I' C) in J. auto.
    - intros [-> (p & Kp & Q & H)]. destruct (on_entry p s e i H) as [l [I J]]. rewrite Q in I.
      assert (Ks : keeps_sample true (code p) = true) by (destruct Kp as [->|[->|[->| ->]]]; reflexivity).
      assert (I' : In ((mkEl s e k0, code p), l) (map_of (match k0 with KEvent => SkEvent SeSend | KField => SkField SfUpdate end) g)).
      { destruct Kp as [->|[->|[->| ->]]]; cbn in Q; subst k0; exact I. }
      apply (in_counted _ _ _ (code p) l i (U k0 (mkEl s e k0))); auto. intros Hs. apply (SE _ Hs). reflexivity. }
  unfold all_pairs. rewrite in_app_iff, (G KEvent _ [] eq_refl), (G KField _ _ eq_refl).
  - split; [intros [[-> H]|[-> H]]; exact H|]. intros H. destruct k; auto.
  - intros el H. apply seen_after_in in H. destruct H as [[]|(n & l & H)].
    pose proof (proj1 (entry_kind (SkEvent SeSend) _ _ _ H)) as Q. cbn in Q. rewrite Q. discriminate.
  - intros el [].
Qed.
Lemma all_pairs_nodup : NoDup all_pairs.
Proof.
  destruct (load_on _ _ _ L W P) as [T _]. unfold all_pairs. apply nodup_app.
  - apply counted_nodup. exact (perm_neat _ _ (reordered_map (SkEvent SeSend) f g R) (proj1 (T (SkEvent SeSend)))).
  - apply counted_nodup. exact (perm_neat _ _ (reordered_map (SkField SfUpdate) f g R) (proj1 (T (SkField SfUpdate)))).
  - intros [el i] A B. apply counted_in in A. apply counted_in in B.
    destruct A as [_ (n & l & _ & A & _)], B as [_ (n' & l' & _ & B & _)].
    pose proof (proj1 (entry_kind (SkEvent SeSend) _ _ _ A)). pose proof (proj1 (entry_kind (SkField SfUpdate) _ _ _ B)). cbn in *. congruence.
Qed.
Lemma get_slots_sum : get_slots c g = if 65535 <? sum (map amount all_pairs) then Terminates else Done (sum (map amount all_pairs)).
Proof.
  assert (G : forall k m, m = map_of (match k with KEvent => SkEvent SeSend | KField => SkField SfUpdate end) g ->
    forall x l i, In (x, l) m -> keeps_sample true (snd x) = true -> In i l -> slots_of_inst c (fst x) k i = Done (amount (fst x, i))).
  { intros k m -> [el n] l i I K J. cbn [fst snd] in *. destruct (sample_point k n K) as (p & _ & Q & C & M).
    assert (I' : In ((el, n), l) (map_of p g)) by (destruct k, p; try contradiction; exact I).
    apply (entry_on p el n l i I' C) in J. apply on_amount in J. destruct J as (_ & _ & J).
    rewrite Q in J. pose proof (proj1 (entry_kind p _ _ _ I')) as Kk. rewrite Q in Kk. destruct el as [s e k0]. cbn in *. subst k0. exact J. }
  unfold get_slots. rewrite (find_slots_sum c KEvent (f_se g) [] 0 amount (G KEvent _ eq_refl)). cbn [bind fst snd].
  rewrite (find_slots_sum c KField (f_sf g) _ 0 amount (G KField _ eq_refl)). cbn [bind fst snd].
  rewrite find_slots_none. cbn [bind fst snd]. rewrite find_slots_none. cbn [bind fst snd]. unfold all_pairs. rewrite map_app, sum_app.
  replace (0 + sum (map amount (counted (f_se g) [])) + (0 + sum (map amount (counted (f_sf g) (seen_after (f_se g) []))) + (0 + 0)))
    with (sum (map amount (counted (f_se g) [])) + sum (map amount (counted (f_sf g) (seen_after (f_se g) [])))) by lia.
  reflexivity.
Qed.
End Slots.

(** C94. The number of tracing slots that is set up is the sum of the slots of all events and
    fields of all instances that have a trace point at which the sample is kept; the process ends
    when this is more than 65535. The order in which the entries are met does not matter. *)
Theorem C94_slots_partial file c f g : load true (Some file) c = Done (Some f) -> proper c -> plain c -> reordered f g ->
  forall (qs : list (element * name)) (slots : element * name -> N),
  NoDup qs ->
  (forall s e k i, In (mkEl s e k, i) qs <-> exists p, keeps p /\ kind_of p = k /\ is_enabled f s e i p = Done true) ->
  (forall s e k i, In (mkEl s e k, i) qs -> deployed_slots c i s e k (slots (mkEl s e k, i))) ->
  get_slots c g = if 65535 <? sum (map slots qs) then Terminates else Done (sum (map slots qs)).
Proof.
  intros L W P R qs slots D Q S. rewrite (get_slots_sum file c f g L W P R).
  assert (E : sum (map (amount c) (all_pairs g)) = sum (map slots qs)).
  { transitivity (sum (map (amount c) qs)).
    - apply sum_perm, Permutation_map, NoDup_Permutation; [eapply all_pairs_nodup; eassumption|exact D|].
      intros [[s e k] i]. rewrite (in_all_pairs file c f g L W P R), Q. setoid_rewrite on_enabled. tauto.
    - f_equal. apply map_ext_in. intros [[s e k] i] I. apply S in I. unfold amount. cbn [fst snd e_kind].
      rewrite (deployed_slots_inst c i s e k _ W I). reflexivity. }
  rewrite E. reflexivity.
Qed.

(** C94. So there are enough slots for every set of traced events and fields, and each has one. *)
Theorem C94_enough_partial file c f g n : load true (Some file) c = Done (Some f) -> proper c -> plain c -> reordered f g ->
  get_slots c g = Done n ->
  forall (qs : list (element * name)) (slots : element * name -> N),
  NoDup qs ->
  (forall s e k i, In (mkEl s e k, i) qs -> (exists p, keeps p /\ kind_of p = k /\ is_enabled f s e i p = Done true) /\
     deployed_slots c i s e k (slots (mkEl s e k, i))) ->
  sum (map slots qs) <= n /\ forall q, In q qs -> 0 < slots q.
Proof.
  intros L W P R G qs slots D Q.
  assert (A : forall q, In q qs -> slots q = amount c q /\ 0 < amount c q /\ In q (all_pairs g)).
  { intros [[s e k] i] I. destruct (Q _ _ _ _ I) as [(p & Kp & K & En) S]. apply on_enabled in En.
    pose proof (on_amount file c f L W P p s e i En) as (_ & Pos & _). rewrite K in Pos. split; [|split; [exact Pos|]].
    - unfold amount. cbn [fst snd e_kind]. rewrite (deployed_slots_inst c i s e k _ W S). reflexivity.
    - apply (in_all_pairs file c f g L W P R). eauto. }
  split; [|intros q I; destruct (A q I) as (-> & Pos & _); exact Pos].
  rewrite (get_slots_sum file c f g L W P R) in G. destruct (65535 <? _); [discriminate|]. injection G as <-.
  replace (map slots qs) with (map (amount c) qs) by (apply map_ext_in; intros q I; symmetry; apply A, I).
  apply sum_incl; [exact D|]. intros q I. apply A, I.
Qed.

(** ** Cases *)

Definition ev (n : N) : event_depl := mkEv (Some 5) (Some 3) None true n.
Definition an_inst (s : name) (evs : list (name * event_depl)) (fds : list (name * field_depl)) : inst_depl :=
  mkInst (mkSv s 1 0) (BLola (mkLi (Some 1) None None None evs fds [] true [] [] false false)) QB (str "x").
Definition a_type (evs fds : list (name * N)) : type_depl := TLola (mkLt 7 evs fds []).
Definition conf1 : conf := make_conf
  [(mkSv (str "S") 1 0, a_type [(str "E", 1); (str "E2", 2)] [(str "F", 3)])]
  [(str "I1", an_inst (str "S") [(str "E", ev 2); (str "E2", ev 0)] [(str "F", mkFd (ev 4) false false)]);
   (str "I2", an_inst (str "S") [(str "E", ev 3)] [])] QB.
Definition file1 : json := JObj [(str "services", JList [JObj [(str "shortname_path", JStr (str "S"));
  (str "events", JList [
     JObj [(str "shortname", JStr (str "E")); (str "trace_send", JBool true); (str "trace_subscribe_send", JBool false)];
     JObj [(str "shortname", JStr (str "E")); (str "trace_send_allocate", JBool true)];
     JObj [(str "shortname", JStr (str "E2")); (str "trace_send", JBool true)];
     JObj [(str "shortname", JStr (str "E3")); (str "trace_send", JBool true)]]);
  (str "fields", JList [
     JObj [(str "shortname", JStr (str "F")); (str "notifier", JObj [(str "trace_update", JBool true)]);
           (str "getter", JObj [(str "trace_request_send", JBool true)])]])]])].
Definition filter1 : filter := match load true (Some file1) conf1 with Done (Some f) => f | _ => empty end.

Ltac config_cases H := vm_compute in H;
  repeat (destruct H as [H|H]; [first [discriminate|injection H as <- <-|injection H as <-]|]); try contradiction.
Lemma conf1_proper : proper conf1.
Proof.
  intros i d H. config_cases H.
  all: split; [vm_compute; reflexivity|]. all: intros l E; injection E as <-.
  all: split; vm_compute; repeat (constructor; [cbn; intuition discriminate|]); constructor.
Qed.
Lemma conf1_named s e k : configured conf1 s e k -> s = str "S" /\ (e = str "E" \/ e = str "E2" \/ e = str "F").
Proof.
  intros (sv & t & H & <- & I). config_cases H. split; [vm_compute; reflexivity|].
  destruct k; vm_compute in I; repeat (destruct I as [I|I]; [subst e; vm_compute; auto|]); contradiction.
Qed.
Lemma conf1_plain : plain conf1.
Proof. intros s e k H. apply conf1_named in H. destruct H as [-> [->|[->| ->]]]; split; vm_compute; intuition discriminate. Qed.
Lemma conf1_short : short conf1.
Proof. intros s e k H. apply conf1_named in H. destruct H as [-> [->|[->| ->]]]; vm_compute; discriminate. Qed.
Example ex_load : load true (Some file1) conf1 = Done (Some filter1).
Proof. vm_compute. reflexivity. Qed.
Example ex_enabled :
  is_enabled filter1 (str "S") (str "E") (str "I1") (SkEvent SeSend) = Done true /\
  is_enabled filter1 (str "S") (str "E") (str "I2") (SkEvent SeSendAlloc) = Done true /\
  is_enabled filter1 (str "S") (str "E2") (str "I1") (SkEvent SeSend) = Done false /\
  is_enabled filter1 (str "S") (str "E") (str "I1") (PxEvent PeSubscribe) = Done false /\
  is_enabled filter1 (str "S") (str "F") (str "I1") (SkField SfUpdateAlloc) = Done true /\
  is_enabled filter1 (str "S") (str "F") (str "I1") (PxField PfGet) = Done true /\
  get_slots conf1 filter1 = Done 9.
Proof. vm_compute. repeat split; reflexivity. Qed.
Example ex_shape : file_shape file1.
Proof.
  assert (FL : forall l, (forall k j, In (k, j) l -> k <> str "shortname" -> is_bool j) -> flags l).
  { intros l H k j F. apply H, find_in, F. }
  eexists. split; [reflexivity|]. unfold optional. vm_compute (find _ _). eexists. split; [reflexivity|].
  intros x [<-|[]]. eexists. split; [reflexivity|]. unfold optional. split; [eexists; reflexivity|]. split.
  - eexists. split; [reflexivity|]. intros x H. repeat (destruct H as [<-|H]; [|]); try contradiction.
    all: eexists; split; [reflexivity|]; split; [eexists; reflexivity|]; apply FL; intros k j H K; cbn in H;
      repeat (destruct H as [H|H]; [injection H as <- <-; first [eexists; reflexivity|contradict K; reflexivity]|]); contradiction.
  - eexists. split; [reflexivity|]. intros x [<-|[]]. eexists. split; [reflexivity|]. split; [eexists; reflexivity|].
    intros k [<-|[<-|[<-|[]]]]; unfold optional; vm_compute (find _ _); try exact I; eexists; (split; [reflexivity|]).
    all: apply FL; intros k j H K; cbn in H;
      repeat (destruct H as [H|H]; [injection H as <- <-; first [eexists; reflexivity|contradict K; reflexivity]|]); contradiction.
Qed.

(** C94, refuted for names with a NUL character: the file asks for the trace point, the deployment
    has slots, and the trace point is off. *)
Definition nul_name : name := str "A" ++ 0 :: str "B".
Definition conf2 : conf := make_conf [(mkSv (str "S") 1 0, a_type [(nul_name, 1); (str "A", 2)] [])]
  [(str "I1", an_inst (str "S") [(nul_name, ev 2); (str "A", ev 2)] [])] QB.
Definition file2 : json := JObj [(str "services", JList [JObj [(str "shortname_path", JStr (str "S"));
  (str "events", JList [JObj [(str "shortname", JStr nul_name); (str "trace_send", JBool true)]])]])].
Theorem C94_nul_off_refuted : exists file c f s e i n, load true (Some file) c = Done (Some f) /\ proper c /\
  asks file s e (SkEvent SeSend) /\ configured c s e KEvent /\ 0 < n /\ deployed_slots c i s e KEvent n /\
  is_enabled f s e i (SkEvent SeSend) = Done false.
Proof.
  exists file2, conf2. eexists. exists (str "S"), nul_name, (str "I1"), 2.
  split; [vm_compute; reflexivity|]. split.
  { intros i d H. config_cases H. split; [vm_compute; reflexivity|]. intros l E; injection E as <-.
    split; vm_compute; repeat (constructor; [cbn; intuition discriminate|]); constructor. }
  split. { unfold asks, file2. do 5 eexists. split; [reflexivity|]. split; [vm_compute; reflexivity|]. split; [left; reflexivity|].
    split; [vm_compute; reflexivity|]. split; [vm_compute; reflexivity|]. split; [left; reflexivity|].
    eexists. split; [reflexivity|]. split; vm_compute; reflexivity. }
  split. { do 2 eexists. split; [left; reflexivity|]. split; [reflexivity|]. left. reflexivity. }
  split; [reflexivity|]. split. { do 2 eexists. split; [left; reflexivity|]. split; [reflexivity|]. split; [reflexivity|].
    eexists. split; vm_compute; reflexivity. }
  vm_compute. reflexivity.
Qed.
(** ... and another trace point is on that no file asks for *)
Theorem C94_nul_on_refuted : exists file c f s e i, load true (Some file) c = Done (Some f) /\ proper c /\
  ~ asks file s e (SkEvent SeSend) /\ is_enabled f s e i (SkEvent SeSend) = Done true.
Proof.
  exists file2, conf2. eexists. exists (str "S"), (str "A"), (str "I1").
  split; [vm_compute; reflexivity|]. split.
  { intros i d H. config_cases H. split; [vm_compute; reflexivity|]. intros l E; injection E as <-.
    split; vm_compute; repeat (constructor; [cbn; intuition discriminate|]); constructor. }
  split; [|vm_compute; reflexivity].
  intros (o & l & svc & els & j & E & F1 & I1 & F2 & F3 & I2 & (oe & -> & N & _)). injection E as <-.
  vm_compute in F1. injection F1 as <-. destruct I1 as [I1|[]]. injection I1 as <-.
  vm_compute in F3. injection F3 as <-. destruct I2 as [I2|[]]. injection I2 as <-. vm_compute in N. discriminate.
Qed.

(** C94, refuted for long names: asking whether a trace point is on ends the process, also when the
    filter file does not mention the element. *)
Definition long_name : name := repeat 97 1023%nat.
Definition conf3 : conf := make_conf [(mkSv (str "S") 1 0, a_type [(str "E", 1); (long_name, 2)] [])]
  [(str "I1", an_inst (str "S") [(str "E", ev 2); (long_name, ev 2)] [])] QB.
Theorem C94_long_name_refuted : exists file c f s e i, load true (Some file) c = Done (Some f) /\ proper c /\ plain c /\
  (exists n, deployed_slots c i s e KEvent n) /\ configured c s e KEvent /\
  is_enabled f s e i (SkEvent SeSend) = Terminates.
Proof.
  exists (JObj [(str "services", JList [JObj [(str "shortname_path", JStr (str "S"));
    (str "events", JList [JObj [(str "shortname", JStr (str "E")); (str "trace_send", JBool true)]])]])]), conf3.
  eexists. exists (str "S"), long_name, (str "I1"). split; [vm_compute; reflexivity|].
  split.
  { intros i d H. destruct H as [H|[]]. injection H as <- <-. split; [vm_compute; reflexivity|]. intros l E; injection E as <-.
    split; cbn; repeat (constructor; [intros Q; repeat (destruct Q as [Q|Q]; [vm_compute in Q; discriminate|]); exact Q|]); constructor. }
  split.
  { intros s e k (sv & t & H & <- & I). destruct H as [H|[]]. injection H as <- <-.
    split; [vm_compute; intuition discriminate|]. destruct k; [|destruct I].
    destruct I as [<-|[<-|[]]]; [vm_compute; intuition discriminate|]. intros Q. apply repeat_spec in Q. discriminate. }
  split. { exists 2. do 2 eexists. split; [left; reflexivity|]. split; [reflexivity|]. split; [reflexivity|].
    eexists. split; vm_compute; reflexivity. }
  split. { do 2 eexists. split; [left; reflexivity|]. split; [reflexivity|]. right. left. reflexivity. }
  vm_compute. reflexivity.
Qed.

(** Asking whether a trace point is on, and switching one on, end the process exactly when the names of
    service and element together have more than 1022 bytes. *)
Theorem C94_long_names : forall f s e i p, code p <> 0 ->
  (is_enabled f s e i p = Terminates <-> (1022 < length s + length e)%nat) /\
  (add_point s e i p f = Terminates <-> (1022 < length (cut s) + length (cut e))%nat).
Proof.
  intros f s e i p NZ. apply N.eqb_neq in NZ.
  assert (H : forall a b k, hashable (mkEl a b k, code p) = negb (1022 <? length a + length b)%nat).
  { intros a b k. unfold hashable, max_buffer. cbn [fst e_service e_name].
    destruct (Nat.ltb_spec 1022 (length a + length b)); cbn [negb]; [apply N.leb_gt|apply N.leb_le]; lia. }
  split.
  - unfold is_enabled. rewrite H. destruct (Nat.ltb_spec 1022 (length s + length e)); cbn [negb].
    + split; [intros _; assumption|reflexivity].
    + split; [|lia]. discriminate.
  - unfold add_point. rewrite NZ, H. destruct (Nat.ltb_spec 1022 (length (cut s) + length (cut e))); cbn [negb].
    + split; [intros _; assumption|reflexivity].
    + split; [|lia]. discriminate.
Qed.

(** C94, refuted when the trace points of an element have been added for different instances
    (AddTracePoint, not through a file): the number depends on the order in which the entries of the
    map are met. *)
Theorem C94_slots_order_refuted : exists c f1 f g n m, proper c /\ plain c /\
  add_point (str "S") (str "E") (str "I1") (SkEvent SeSend) empty = Done f1 /\
  add_point (str "S") (str "E") (str "I2") (SkEvent SeSendAlloc) f1 = Done f /\ reordered f g /\
  get_slots c f = Done n /\ get_slots c g = Done m /\ n <> m.
Proof.
  exists conf1. do 2 eexists.
  exists (mkFilter [((mkEl (str "S") (str "E") KEvent, 2), [str "I2"]); ((mkEl (str "S") (str "E") KEvent, 1), [str "I1"])] [] [] []), 2, 3.
  split; [exact conf1_proper|]. split; [exact conf1_plain|]. split; [vm_compute; reflexivity|]. split; [vm_compute; reflexivity|].
  split; [|vm_compute; repeat split; discriminate].
  unfold reordered. cbn. split; [apply perm_swap|]. auto.
Qed.

Print Assumptions C94_enabled_partial.
Print Assumptions C94_answers_partial.
Print Assumptions C94_read_partial.
Print Assumptions C94_slots_partial.
Print Assumptions C94_enough_partial.
Print Assumptions C94_nul_off_refuted.
Print Assumptions C94_nul_on_refuted.
Print Assumptions C94_long_name_refuted.
Print Assumptions C94_long_names.
Print Assumptions C94_slots_order_refuted.
