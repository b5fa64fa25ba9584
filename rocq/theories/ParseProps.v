(** C103. Reading the configuration file: what the file has to say, what the configuration then
    contains, and what it does not guarantee. Vocabulary: ParseSpec.v; proofs: ParseProofs.v. *)
From Coq Require Import String Lia.
From Verif Require Import Base NamesModel DeplModel DeplProofs ConfModel IdentProps ConfProps FilterModel
  FilterSpec FilterProofs FilterProps ParseModel ParseSpec ParseProofs.
Open Scope N_scope.

(** * What the file says *)

Lemma flat_insts_id l : NoDup (map fst l) -> flat_insts l = l.
Proof.
  induction l as [|[k d] l IH]; cbn [flat_insts map fst]; intros D; [reflexivity|].
  inversion D as [|? ? D1 D2]; subst. rewrite (IH D2). f_equal. clear IH D D2.
  induction l as [|[k' d'] l IH]; [reflexivity|]. cbn [List.filter fst map In] in *.
  destruct (name_eqb k k') eqn:E.
  - apply name_eqb_eq in E. subst. exfalso. apply D1. left. reflexivity.
  - cbn [negb]. f_equal. apply IH. tauto.
Qed.
Lemma conf_insts p : NoDup (map fst (pa_insts p)) -> all_insts (conf_of p) = pa_insts p.
Proof. intros D. unfold all_insts, conf_of, make_conf. cbn [c_insts concat]. rewrite app_nil_r. apply flat_insts_id, D. Qed.
Lemma step_off l m : loop (trace_step false) l m = Done m.
Proof. induction l; [reflexivity|]. cbn [loop trace_step bind]. exact IHl. Qed.
Lemma step_on l m : loop (trace_step true) l m = loop trace_inst l m.
Proof. revert m. induction l; intros m; [reflexivity|]. cbn [loop trace_step bind]. destruct (trace_inst a m); cbn [bind]; auto. Qed.

(** C103. Whatever is read is what the file says. *)
Theorem C103_meaning_partial : forall j p, unique_keys j -> read_conf j = Done p ->
  says j (pa_types p) (pa_insts p) (pa_global p) (pa_trace p).
Proof. intros j p U H. apply (read_conf_done j p U) in H. apply H. Qed.

Lemma lists_in {A} (R : object -> A -> Prop) o k (l : list A) a : has (lists R) o k l -> In a l -> exists x, R x a.
Proof.
  intros (j & _ & js & _ & H) I. induction H as [|e b js l (x & _ & R1) _ IH]; [destruct I|].
  destruct I as [<-|I]; [eauto|auto].
Qed.
Lemma says_inst_in j types insts g t i d : says j types insts g t -> In (i, d) insts -> exists o, says_instance o (i, d).
Proof. intros (o & _ & _ & _ & H & _) I. exact (lists_in _ _ _ _ _ H I). Qed.
Lemma says_type_in j types insts g t s d : says j types insts g t -> In (s, d) types -> exists o, says_type o (s, d).
Proof. intros (o & _ & H & _) I. exact (lists_in _ _ _ _ _ H I). Qed.
Lemma inst_lola o i d : says_instance o (i, d) -> exists x l, in_binding d = BLola l /\ says_lola x l.
Proof.
  intros (_ & _ & _ & _ & H). cbn [snd] in H. destruct (lists_in _ _ _ _ d H (or_introl eq_refl)) as (x & _ & _ & l & B & S). eauto.
Qed.

(** C103. A file that says what configuration it describes is read, and gives exactly that. *)
Theorem C103_accepted_partial : forall j types insts g t, unique_keys j -> says j types insts g t ->
  exists p, read_conf j = Done p /\ pa_types p = types /\ pa_insts p = insts /\ pa_global p = g /\ pa_trace p = t.
Proof.
  intros j types insts g t U S. pose proof S as (o & _ & _ & _ & _ & D & _).
  assert (T : exists tr, loop (trace_step (t_on t)) insts [] = Done tr).
  { destruct (t_on t); [rewrite step_on|eexists; apply step_off].
    pose proof (conf_insts (mkParsed types insts g t []) D) as E. cbn [pa_insts] in E.
    destruct (traced_total (conf_of (mkParsed types insts g t []))) as [tr H].
    - intros i d I. rewrite E in I. destruct (says_inst_in _ _ _ _ _ _ _ S I) as (x & X).
      split; [apply X|]. intros l B. destruct (inst_lola _ _ _ X) as (y & l' & B' & L).
      assert (l = l') by congruence. subst l'. destruct L as (_ & _ & _ & _ & [_ L1] & [_ L2] & _). auto.
    - rewrite E in H. exists tr. exact H. }
  destruct T as [tr T]. exists (mkParsed types insts g t tr). split; [|auto].
  apply (read_conf_done _ _ U). auto.
Qed.
(** C103. A file describes at most one configuration. *)
Theorem C103_one_meaning_partial : forall j types insts g t types' insts' g' t', unique_keys j ->
  says j types insts g t -> says j types' insts' g' t' -> types = types' /\ insts = insts' /\ g = g' /\ t = t'.
Proof.
  intros j types insts g t types' insts' g' t' U S S'.
  destruct (C103_accepted_partial _ _ _ _ _ U S) as (p & E & <- & <- & <- & <-).
  destruct (C103_accepted_partial _ _ _ _ _ U S') as (p' & E' & <- & <- & <- & <-).
  assert (p = p') by congruence. subst. auto.
Qed.

(** * What always holds of a configuration that was read *)

Lemma cut_no_nul s : no_nul (cut s).
Proof.
  unfold no_nul. induction s as [|c s IH]; cbn [cut]; [auto|]. destruct (N.eqb_spec c 0); cbn [In]; [auto|]. intros [E|I]; auto.
Qed.
Lemma may_fits lim o k v : may_have (is_num lim) o k v -> fits lim v.
Proof. destruct v; cbn [may_have fits]; [intros (j & _ & _ & H); exact H|auto]. Qed.
Lemma or_lt lim d o k v : d < lim -> has_or (is_num lim) d o k v -> v < lim.
Proof. intros D [(j & _ & _ & H)|[_ ->]]; assumption. Qed.
Lemma named_in {A} (R : object -> name * A -> Prop) o k l x : named R o k l -> In x l -> exists y, R y x.
Proof.
  intros [[H|[_ ->]] _] I; [|destruct I]. eapply lists_in; eassumption.
Qed.
Lemma slots_fit o v : says_slots o v -> fits two16 v.
Proof.
  intros [[_ H]|(n & -> & (j & _ & _ & H) & _)]; [eapply may_fits; eassumption|exact H].
Qed.
Lemma event_wf o n e : says_event o (n, e) -> wf_event e.
Proof.
  unfold says_event, wf_event. cbn [fst snd]. intros (_ & _ & H1 & H2 & H3 & _ & H4). rewrite H3.
  split; [eapply slots_fit; eassumption|]. split; [eapply may_fits; eassumption|]. split; [reflexivity|].
  apply (or_lt two8 0 _ _ _ eq_refl H4).
Qed.
Lemma field_wf o n f : says_field o (n, f) -> wf_event (fd_event f).
Proof.
  unfold says_field, wf_event. cbn [fst snd]. intros (_ & _ & H1 & H2 & H3 & _ & H4 & _). rewrite H3.
  split; [eapply may_fits; eassumption|]. split; [eapply may_fits; eassumption|]. split; [reflexivity|].
  apply (or_lt two8 0 _ _ _ eq_refl H4).
Qed.
Lemma users_wf o k m : says_users o k m -> wf_users m.
Proof.
  intros [[_ ->]|(u & b & q & _ & _ & Hb & Hq & ->)].
  - split; [constructor|intros ? ? []].
  - assert (Q : quality_text QB <> quality_text QQM) by discriminate.
    assert (L : forall k v l, may_have is_uids u k v -> v = Some l -> forall x, In x l -> x < two32).
    { intros k0 v l H E. subst v. destruct H as (j & _ & _ & H). exact H. }
    split.
    + destruct b, q; cbn [entry app map fst]; repeat constructor; cbn [In]; intuition.
    + intros k0 l I. apply in_app_or in I. destruct I as [I|I].
      * destruct b as [lb|]; cbn [entry] in I; [|destruct I]. destruct I as [I|[]]. injection I as <- <-.
        split; [exists QB; reflexivity|]. exact (L _ _ _ Hb eq_refl).
      * destruct q as [lq|]; cbn [entry] in I; [|destruct I]. destruct I as [I|[]]. injection I as <- <-.
        split; [exists QQM; reflexivity|]. exact (L _ _ _ Hq eq_refl).
Qed.
Lemma lola_wf o l : says_lola o l -> wf_lola_inst l.
Proof.
  intros (H1 & H2 & H3 & H4 & H5 & H6 & H7 & _ & H8 & H9 & _).
  repeat match goal with |- wf_lola_inst _ => unfold wf_lola_inst end.
  split; [eapply may_fits; eassumption|]. split; [eapply may_fits; eassumption|].
  split; [eapply may_fits; eassumption|]. split; [eapply may_fits; eassumption|].
  split; [|split; [|split; [|split; eapply users_wf; eassumption]]].
  - split; [apply H5|]. intros k e I. destruct (named_in _ _ _ _ _ H5 I) as [y Y]. eapply event_wf; eassumption.
  - split; [apply H6|]. intros k e I. destruct (named_in _ _ _ _ _ H6 I) as [y Y]. eapply field_wf; eassumption.
  - split; [apply H7|]. intros k e I. destruct (named_in _ _ _ _ _ H7 I) as [y (_ & Y & _)]. eapply may_fits; eassumption.
Qed.
Lemma service_wf o s : says_service o s -> wf_service s /\ no_nul (sv_name s).
Proof.
  intros ((n & _ & <-) & v & _ & (j1 & _ & _ & H1) & (j2 & _ & _ & H2)). split; [split; assumption|apply cut_no_nul].
Qed.
Lemma ids_wf kn ki o k l : named (says_id kn ki) o k l -> wf_ids l.
Proof.
  intros H. split; [apply H|]. intros n i I. destruct (named_in _ _ _ _ _ H I) as (y & _ & j & _ & _ & L). exact L.
Qed.
(** C103. Every instance of a configuration that was read is complete: its key is its instance
    specifier, a valid one; it has the shared-memory binding, a known quality level, and all numbers
    fit; likewise every type, whose element ids are all different. *)
Theorem C103_well_formed_partial : forall j p, unique_keys j -> read_conf j = Done p ->
  NoDup (map fst (pa_types p)) /\ NoDup (map fst (pa_insts p)) /\
  (forall i d, In (i, d) (pa_insts p) -> in_spec d = i /\ wf_inst d /\ no_nul (sv_name (in_service d)) /\
     (in_asil d = QQM \/ in_asil d = QB) /\
     exists l, in_binding d = BLola l /\ (li_forwarded l = true -> li_vm l = true)) /\
  (forall s t, In (s, t) (pa_types p) -> wf_service s /\ wf_type t /\ no_nul (sv_name s) /\
     forall x, t = TLola x -> NoDup (map snd (lt_events x) ++ map snd (lt_fields x) ++ map snd (lt_methods x))) /\
  (g_level (pa_global p) = QQM \/ g_level (pa_global p) = QB).
Proof.
  intros j p U H. pose proof (C103_meaning_partial j p U H) as S. pose proof S as (o & _ & _ & D1 & _ & D2 & G & _).
  split; [exact D1|]. split; [exact D2|]. split; [|split].
  - intros i d I. destruct (says_inst_in _ _ _ _ _ _ _ S I) as (x & X). pose proof X as (_ & X1 & X2 & X3 & X4).
    cbn [fst snd] in *. apply service_wf in X3. destruct X3 as [X3 X5].
    destruct (lists_in _ _ _ _ d X4 (or_introl eq_refl)) as (y & (t & _ & LV) & _ & l & B & L).
    split; [exact X2|]. split.
    + split; [exact X3|]. rewrite X2. split; [exact X1|]. rewrite B. eapply lola_wf; eassumption.
    + split; [exact X5|]. split; [destruct LV as [[-> _]|[-> _]]; auto|]. exists l. split; [exact B|]. apply L.
  - intros s t I. destruct (says_type_in _ _ _ _ _ _ _ S I) as (x & X1 & bs & _ & X2). cbn [fst snd] in *.
    apply service_wf in X1. destruct X1 as [X1 X3]. split; [exact X1|]. split; [|split; [exact X3|]].
    + destruct t as [t|]; [|exact Logic.I]. destruct X2 as (b & r & _ & _ & (q & _ & _ & Q) & E & F & M & _).
      split; [exact Q|]. split; [eapply ids_wf; exact E|]. split; [eapply ids_wf; exact F|eapply ids_wf; exact M].
    + intros y ->. destruct X2 as (b & r & _ & _ & _ & _ & _ & _ & N). exact N.
  - destruct G as [[_ ->]|(x & _ & [(s & _ & [[-> _]|[-> _]])|[_ ->]] & _)]; auto.
Qed.

(** C103. With tracing enabled, the elements noted as traced are exactly the events and fields that
    have tracing slots in an instance; with tracing disabled there are none. *)
Theorem C103_traced_partial : forall j p, unique_keys j -> read_conf j = Done p ->
  (t_on (pa_trace p) = true -> traced_of (all_insts (conf_of p)) = Done (pa_traced p)) /\
  forall el i, tr_holds (pa_traced p) el i <->
    t_on (pa_trace p) = true /\
    exists d l n, In (i, d) (pa_insts p) /\ sv_name (in_service d) = e_service el /\ in_binding d = BLola l /\ 0 < n /\
      match e_kind el with
      | KEvent => exists e, In (e_name el, e) (li_events l) /\ ev_tracing e = n
      | KField => exists f, In (e_name el, f) (li_fields l) /\ ev_tracing (fd_event f) = n
      end.
Proof.
  intros j p U H. apply (read_conf_done j p U) in H. destruct H as [S L]. pose proof S as (_ & _ & _ & _ & _ & D & _).
  destruct (t_on (pa_trace p)) eqn:T.
  - rewrite step_on in L. rewrite (conf_insts p D). split; [auto|]. intros el i.
    rewrite (traced_of_holds (pa_insts p) (pa_traced p) L). unfold inst_traces, ev_slots_of. split.
    + intros ([i' d] & I & l & n & -> & B & E & J & P). cbn [fst snd] in *. split; [reflexivity|]. exists d, l, n.
      split; [exact I|]. split; [exact E|]. split; [exact B|]. split; [exact P|].
      destruct (e_kind el); apply in_map_iff in J; destruct J as ([k e] & Q & J); injection Q as <- <-; eauto.
    + intros (_ & d & l & n & I & E & B & P & J). exists (i, d). split; [exact I|]. exists l, n. cbn [fst snd].
      split; [reflexivity|]. split; [exact B|]. split; [exact E|]. split; [|exact P].
      destruct (e_kind el); destruct J as (e & J & <-); apply in_map_iff; eexists; (split; [|exact J]); reflexivity.
  - rewrite step_off in L. injection L as L. rewrite <- L. split; [discriminate|]. intros el i. split.
    + intros (v & Q & _). discriminate.
    + intros [Q _]. discriminate.
Qed.

(** C103. The identifier of any configured instance is understood by every process that has a
    configuration without that type and instance; it arrives with its full contents, only without
    the numbers of tracing slots. *)
Theorem C103_identifier_partial : forall j p i d t c, unique_keys j -> read_conf j = Done p ->
  In (i, d) (pa_insts p) -> In (in_service d, t) (pa_types p) -> unknown_in d c ->
  exists x c', create (Some c) (i_text (make_ident d t)) = Created x c' /\
    same_inst (i_inst x) (without_tracing d) /\ same_type (i_type x) t.
Proof.
  intros j p i d t c U H I J N. destruct (C103_well_formed_partial j p U H) as (_ & _ & W1 & W2 & _).
  destruct (W1 i d I) as (_ & Wd & _). destruct (W2 _ _ J) as (_ & Wt & _).
  destruct (C96_content_partial d t c Wd Wt N) as (x & c' & E & _ & E1 & E2 & _). eauto.
Qed.

Lemma find_type_in s m t : find_type s m = Some t -> In (s, t) m.
Proof.
  induction m as [|[s' t'] m IH]; cbn [find_type In]; [discriminate|]. destruct (service_eqb s s') eqn:E; [|auto].
  apply service_eqb_eq in E. intros Q. injection Q as ->. subst. auto.
Qed.
(** C103. In a configuration that was read and is valid, every event and field of an instance has
    an id of its own in the type of the instance. *)
Theorem C103_ids_partial : forall j p, unique_keys j -> read_conf j = Done p -> validate (conf_of p) = None ->
  forall i d, In (i, d) (pa_insts p) -> exists l t, in_binding d = BLola l /\ In (in_service d, TLola t) (pa_types p) /\
    NoDup (map snd (lt_events t) ++ map snd (lt_fields t) ++ map snd (lt_methods t)) /\
    (forall n e, In (n, e) (li_events l) -> exists k, In (n, k) (lt_events t) /\ k < two16) /\
    (forall n e, In (n, e) (li_fields l) -> exists k, In (n, k) (lt_fields t) /\ k < two16).
Proof.
  intros j p U H V i d I. destruct (C103_well_formed_partial j p U H) as (_ & D & W1 & W2 & _).
  assert (G : get_inst (conf_of p) i = Some d).
  { unfold get_inst, conf_of, make_conf. cbn [c_insts gen_inst]. rewrite (in_find _ _ _ D I). reflexivity. }
  pose proof (proj1 (C100_validate _) V i d G) as [(l & t & B & T & E & F) _].
  assert (J : In (in_service d, TLola t) (pa_types p)).
  { unfold get_type, conf_of, make_conf in T. cbn [c_types gen_type] in T.
    destruct (find_type (in_service d) (pa_types p)) as [t'|] eqn:Q; [|discriminate]. injection T as ->.
    apply find_type_in. exact Q. }
  destruct (W2 _ _ J) as (_ & (_ & Ev & Fv & _) & _ & N). exists l, t. split; [exact B|]. split; [exact J|].
  split; [exact (N t eq_refl)|]. split.
  - intros n e In1. specialize (E n e In1). destruct (find n (lt_events t)) as [k|] eqn:Q; [|contradiction].
    apply find_in in Q. exists k. split; [exact Q|]. exact (proj2 Ev n k Q).
  - intros n e In1. specialize (F n e In1). destruct (find n (lt_fields t)) as [k|] eqn:Q; [|contradiction].
    apply find_in in Q. exists k. split; [exact Q|]. exact (proj2 Fv n k Q).
Qed.

(** * Outcomes *)

Definition fine {A} (x : out A) : Prop := x <> Undefined.
Lemma bind_fine {A B} (x : out A) (f : A -> out B) : fine x -> (forall a, fine (f a)) -> fine (bind x f).
Proof. unfold fine. destruct x; cbn [bind]; auto; discriminate. Qed.
Lemma done_fine {A} (a : A) : fine (Done a). Proof. discriminate. Qed.
Lemma term_fine {A} : fine (@Terminates A). Proof. discriminate. Qed.
Lemma loop_fine {A S} (f : A -> S -> out S) l : (forall a s, fine (f a s)) -> forall s, fine (loop f l s).
Proof. intros H. induction l; intros s; cbn [loop]; [apply done_fine|]. apply bind_fine; auto. Qed.
Lemma opt_fine {A} (f : json -> out A) o k : (forall j, fine (f j)) -> fine (opt f o k).
Proof. intros H. unfold opt. destruct (find k o); [apply bind_fine; [apply H|intros; apply done_fine]|apply done_fine]. Qed.
Lemma emplace_fine {A} (f : json -> out (name * A)) l : (forall j, fine (f j)) -> forall s, fine (emplace_all f l s).
Proof.
  intros H. induction l as [|j l IH]; intros s; cbn [emplace_all]; [apply done_fine|].
  apply bind_fine; [apply H|]. intros [n x]. cbn [fst snd]. destruct (find n s); [apply term_fine|apply IH].
Qed.
Ltac fin := repeat match goal with
  | |- fine (Done _) => apply done_fine
  | |- fine Terminates => apply term_fine
  | |- fine (bind _ _) => apply bind_fine; [|intros]
  | |- fine (loop _ _ _) => apply loop_fine; intros
  | |- fine (opt _ _ _) => apply opt_fine; intros
  | |- fine (emplace_all _ _ _) => apply emplace_fine; intros
  | |- fine (need _ _) => unfold need
  | |- fine (as_num _ ?j) => destruct j; cbn [as_num]
  | |- fine (as_bool ?j) => destruct j; cbn [as_bool]
  | |- fine (as_str ?j) => destruct j; cbn [as_str]
  | |- fine (as_obj ?j) => destruct j; cbn [as_obj]
  | |- fine (as_list ?j) => destruct j; cbn [as_list]
  | |- fine (if ?b then _ else _) => destruct b
  | |- fine (match ?x with _ => _ end) => destruct x
  end.
Lemma set_traced_fine k i m : fine (set_traced k i m).
Proof. induction m as [|[q v] m IH]; cbn [set_traced]; fin. exact IH. Qed.
Lemma uids_fine l : fine (parse_uids l).
Proof. induction l; cbn [parse_uids]; fin; exact IHl. Qed.
(** C103. Reading any file either gives a configuration or ends the process in a defined way. *)
Theorem C103_outcomes_partial : forall j, read_conf j <> Undefined.
Proof.
  intros j. change (fine (read_conf j)).
  unfold read_conf, parse_tracing, parse_types, parse_instances, parse_global, parse_type, parse_instance,
    parse_type_depl, parse_lola_type, parse_service, parse_single, parse_specifier, parse_elements, parse_id, parse_asil,
    parse_queue, parse_mode, parse_deployment, parse_lola, parse_elements, parse_event_depl, parse_field_depl,
    parse_method_depl, parse_slots, parse_strict, parse_users, parse_user, abort_if_found, get_str, trace_elements,
    trace_element.
  fin; try apply uids_fine; try apply set_traced_fine. unfold parse_asil. fin.
Qed.

(** * A sample file: two service types, two instances, all sections *)

Definition field (k : string) (j : json) : name * json := (str k, j).
Definition text_of (s : string) : json := JStr (str s).
Definition version (a b : N) : json := JObj [field "major" (JNum a); field "minor" (JNum b)].
Definition type_of (n : string) (bs : list json) : json :=
  JObj [field "serviceTypeName" (text_of n); field "version" (version 1 0); field "bindings" (JList bs)].
Definition binding_of (id : N) (events fields methods : list json) : json :=
  JObj [field "binding" (text_of "SHM"); field "serviceId" (JNum id); field "events" (JList events);
        field "fields" (JList fields); field "methods" (JList methods)].
Definition id_of (k ki n : string) (i : N) : json := JObj [field k (text_of n); field ki (JNum i)].
Definition inst_of (spec n : string) (rest : object) : json :=
  JObj [field "instanceSpecifier" (text_of spec); field "serviceTypeName" (text_of n); field "version" (version 1 0);
        field "instances" (JList [JObj (field "binding" (text_of "SHM") :: field "asil-level" (text_of "QM") :: rest)])].
Definition file_of (types insts : list json) (rest : object) : json :=
  JObj (field "serviceTypes" (JList types) :: field "serviceInstances" (JList insts) :: rest).
Definition sample : json := file_of
  [type_of "/a" [binding_of 1 [id_of "eventName" "eventId" "e" 1] [id_of "fieldName" "fieldId" "f" 2] []];
   type_of "/b" [binding_of 2 [] [] [id_of "methodName" "methodId" "m" 1]]]
  [inst_of "p/one" "/a"
     [field "instanceId" (JNum 7); field "shm-size" (JNum 4096); field "permission-checks" (text_of "strict");
      field "allowedConsumer" (JObj [field "QM" (JList [JNum 10; JNum 11]); field "B" (JList [])]);
      field "events" (JList [JObj [field "eventName" (text_of "e"); field "maxSamples" (JNum 5);
                                   field "numberOfIpcTracingSlots" (JNum 2)]]);
      field "fields" (JList [JObj [field "fieldName" (text_of "f"); field "numberOfSampleSlots" (JNum 3);
                                   field "maxSubscribers" (JNum 4); field "enforceMaxSamples" (JBool false);
                                   field "useSetIfAvailable" (JBool false)]])];
   inst_of "p/two" "/b" [field "methods" (JList [JObj [field "methodName" (text_of "m"); field "queueSize" (JNum 9)]])]]
  [field "global" (JObj [field "asil-level" (text_of "B"); field "queue-size" (JObj [field "B-sender" (JNum 33)])]);
   field "tracing" (JObj [field "enable" (JBool true); field "applicationInstanceID" (text_of "app")])].
Definition sample_one : inst_depl := mkInst (mkSv (str "/a") 1 0)
  (BLola (mkLi (Some 7) (Some 4096) None None
    [(str "e", mkEv (Some 5) None (Some 1) true 2)]
    [(str "f", mkFd (mkEv (Some 3) (Some 4) (Some 1) false 0) true false)] [] true
    [(quality_text QB, []); (quality_text QQM, [10; 11])] [] false false)) QQM (str "p/one").
Ltac nodup := repeat match goal with
  | |- NoDup [] => constructor
  | |- NoDup _ => constructor; [let I := fresh "I" in intros I; cbn [In] in I;
      repeat (destruct I as [I|I]; [discriminate I|]); exact I|]
  end.
Ltac uniq := repeat (cbn [unique_keys map fst]; match goal with
  | |- _ /\ _ => split
  | |- True => exact Logic.I
  | |- NoDup _ => nodup
  end).
Example ex_sample_keys : unique_keys sample.
Proof.
  unfold sample, file_of, type_of, inst_of, binding_of, id_of, version, field, text_of. uniq.
Qed.
Example ex_sample_read : exists p, read_conf sample = Done p /\ validate (conf_of p) = None /\
  map fst (pa_types p) = [mkSv (str "/a") 1 0; mkSv (str "/b") 1 0] /\
  find (str "p/one") (pa_insts p) = Some sample_one /\ map fst (pa_insts p) = [str "p/one"; str "p/two"] /\
  pa_global p = mkGlobal QB None 10 10 33 Simulation /\
  pa_trace p = mkTrace true (str "app") (str "./etc/mw_com_trace_filter.json") /\
  pa_traced p = [(mkEl (str "/a") (str "e") KEvent, [str "p/one"])].
Proof. eexists. split; [vm_compute; reflexivity|]. repeat split; vm_compute; reflexivity. Qed.
Example ex_sample_says : exists types insts g t, says sample types insts g t /\ length types = 2%nat /\ length insts = 2%nat.
Proof.
  destruct ex_sample_read as (p & E & _). pose proof (C103_meaning_partial _ _ ex_sample_keys E) as S.
  do 4 eexists. split; [exact S|]. vm_compute in E. injection E as <-. split; reflexivity.
Qed.
Example ex_sample_identifier : exists p d t c, read_conf sample = Done p /\ In (str "p/one", d) (pa_insts p) /\
  In (in_service d, t) (pa_types p) /\ unknown_in d c.
Proof.
  destruct (read_conf sample) as [p| |] eqn:E; vm_compute in E; try discriminate. injection E as <-.
  eexists _, sample_one, _,
    (make_conf [(mkSv (str "/z") 1 0, TBlank)] [(str "z", mkInst (mkSv (str "/z") 1 0) BBlank QQM (str "z"))] QQM).
  split; [reflexivity|]. split; [left; vm_compute; reflexivity|]. split; [left; vm_compute; reflexivity|].
  split; [discriminate|]. split; [discriminate|]. split; reflexivity.
Qed.
(** Wrong files end the process: a name twice, an id twice, a level that does not exist *)
Example ex_rejected :
  read_conf (file_of [type_of "/a" [binding_of 1 [id_of "eventName" "eventId" "e" 1; id_of "eventName" "eventId" "e" 2] [] []]] [] [])
    = Terminates /\
  read_conf (file_of [type_of "/a" [binding_of 1 [id_of "eventName" "eventId" "e" 1] [id_of "fieldName" "fieldId" "f" 1] []]] [] [])
    = Terminates /\
  read_conf (file_of [] [] [field "global" (JObj [field "asil-level" (text_of "C")])]) = Terminates.
Proof. repeat split; vm_compute; reflexivity. Qed.

(** * What a configuration that was read does not guarantee *)

(** What follows a NUL character in the name of a service type is dropped without a message: two
    types with different names cannot be configured, and the type gets a name the file does not
    contain. *)
Theorem C103_name_cut_refuted : exists j p o n, unique_keys j /\ read_conf j = Done p /\
  j = JObj o /\ has (lists (fun x m => has is_text x (str "serviceTypeName") m)) o (str "serviceTypes") [n] /\
  ~ exists s t, In (s, t) (pa_types p) /\ sv_name s = n.
Proof.
  set (n := str "/a" ++ [0] ++ str "b").
  exists (JObj [field "serviceTypes" (JList [JObj [field "serviceTypeName" (JStr n); field "version" (version 1 0);
                  field "bindings" (JList [])]]); field "serviceInstances" (JList [])]).
  eexists _, _, n. split; [unfold version, field; uniq|]. split; [vm_compute; reflexivity|]. split; [reflexivity|].
  split.
  - eexists. split; [reflexivity|]. eexists. split; [reflexivity|]. constructor; [|constructor].
    eexists. split; [reflexivity|]. eexists. split; reflexivity.
  - intros (s & t & [E|[]] & Q). injection E as <- <-. vm_compute in Q. discriminate.
Qed.
(** Of several bindings of a service type only the first is read; the others are ignored without a
    message, whatever they contain. *)
Theorem C103_further_bindings_refuted : forall junk, exists j p, 
  j = file_of [type_of "/a" [binding_of 1 [] [] []; junk]] [] [] /\ read_conf j = Done p /\
  pa_types p = [(mkSv (str "/a") 1 0, TLola (mkLt 1 [] [] []))] /\ validate (conf_of p) = None.
Proof. intros junk. eexists _, _. split; [reflexivity|]. split; [vm_compute; reflexivity|]. split; vm_compute; reflexivity. Qed.
(** Two service types may have the same service id, the number that names their shared memory and
    their service discovery entries; the configuration is accepted and valid. *)
Theorem C103_same_service_id_refuted : exists j p s s' t t', unique_keys j /\ read_conf j = Done p /\
  validate (conf_of p) = None /\ In (s, TLola t) (pa_types p) /\ In (s', TLola t') (pa_types p) /\
  sv_name s <> sv_name s' /\ lt_id t = lt_id t'.
Proof.
  exists (file_of [type_of "/a" [binding_of 1 [] [] []]; type_of "/b" [binding_of 1 [] [] []]] [] []).
  do 5 eexists. split; [unfold file_of, type_of, binding_of, version, field, text_of; uniq|].
  split; [vm_compute; reflexivity|]. split; [vm_compute; reflexivity|].
  split; [left; reflexivity|]. split; [right; left; reflexivity|]. split; [discriminate|reflexivity].
Qed.
(** Numbers of sample and tracing slots that are each allowed: the configuration is accepted and
    valid, creating the event ends the process. *)
Theorem C103_too_many_slots_refuted : exists j p i d l n e, unique_keys j /\ read_conf j = Done p /\
  validate (conf_of p) = None /\ In (i, d) (pa_insts p) /\ in_binding d = BLola l /\ In (n, e) (li_events l) /\
  sample_slots e = Terminates.
Proof.
  exists (file_of [type_of "/a" [binding_of 1 [id_of "eventName" "eventId" "e" 1] [] []]]
    [inst_of "p" "/a" [field "events" (JList [JObj [field "eventName" (text_of "e");
       field "numberOfSampleSlots" (JNum 65535); field "numberOfIpcTracingSlots" (JNum 1)]])]] []).
  do 6 eexists. split; [unfold file_of, type_of, inst_of, binding_of, id_of, version, field, text_of; uniq|].
  split; [vm_compute; reflexivity|]. split; [vm_compute; reflexivity|].
  split; [left; reflexivity|]. split; [reflexivity|]. split; [left; reflexivity|]. vm_compute. reflexivity.
Qed.
(** The schema asks for at least one sample slot: zero is accepted. *)
Theorem C103_no_slots_refuted : exists j p i d l n e, unique_keys j /\ read_conf j = Done p /\
  validate (conf_of p) = None /\ In (i, d) (pa_insts p) /\ in_binding d = BLola l /\ In (n, e) (li_events l) /\
  sample_slots e = Done (Some 0).
Proof.
  exists (file_of [type_of "/a" [binding_of 1 [id_of "eventName" "eventId" "e" 1] [] []]]
    [inst_of "p" "/a" [field "events" (JList [JObj [field "eventName" (text_of "e");
       field "numberOfSampleSlots" (JNum 0)]])]] []).
  do 6 eexists. split; [unfold file_of, type_of, inst_of, binding_of, id_of, version, field, text_of; uniq|].
  split; [vm_compute; reflexivity|]. split; [vm_compute; reflexivity|].
  split; [left; reflexivity|]. split; [reflexivity|]. split; [left; reflexivity|]. vm_compute. reflexivity.
Qed.
(** A method of an instance that its service type does not have: the configuration is accepted and
    valid. Events and fields are checked (C103_ids). *)
Theorem C103_unknown_method_refuted : exists j p i d l n m, unique_keys j /\ read_conf j = Done p /\
  validate (conf_of p) = None /\ In (i, d) (pa_insts p) /\ in_binding d = BLola l /\ In (n, m) (li_methods l) /\
  forall t, In (in_service d, TLola t) (pa_types p) -> ~ In n (map fst (lt_methods t)).
Proof.
  exists (file_of [type_of "/a" [binding_of 1 [] [] []]]
    [inst_of "p" "/a" [field "methods" (JList [JObj [field "methodName" (text_of "m")]])]] []).
  do 6 eexists. split; [unfold file_of, type_of, inst_of, binding_of, id_of, version, field, text_of; uniq|].
  split; [vm_compute; reflexivity|]. split; [vm_compute; reflexivity|].
  split; [left; reflexivity|]. split; [reflexivity|]. split; [left; reflexivity|].
  intros t [E|[]]. injection E as <-. intros [].
Qed.
(** A misspelt key is ignored, here the number of sample slots: the event has none. *)
Theorem C103_misspelt_refuted : forall v, exists j p i d l n e,
  j = file_of [type_of "/a" [binding_of 1 [id_of "eventName" "eventId" "e" 1] [] []]]
    [inst_of "p" "/a" [field "events" (JList [JObj [field "eventName" (text_of "e");
       field "numberOfSampleSlot" v]])]] [] /\
  read_conf j = Done p /\ validate (conf_of p) = None /\ In (i, d) (pa_insts p) /\ in_binding d = BLola l /\
  In (n, e) (li_events l) /\ ev_slots e = None.
Proof.
  intros v. do 7 eexists. split; [reflexivity|]. split; [vm_compute; reflexivity|]. split; [vm_compute; reflexivity|].
  split; [left; reflexivity|]. split; [reflexivity|]. split; [left; reflexivity|]. reflexivity.
Qed.
(** An empty list of bindings is accepted; no instance can be of that type. *)
Theorem C103_no_binding_refuted : exists j p s, unique_keys j /\ read_conf j = Done p /\
  validate (conf_of p) = None /\ In (s, TBlank) (pa_types p).
Proof.
  exists (file_of [type_of "/a" []] [] []). do 2 eexists.
  split; [unfold file_of, type_of, version, field, text_of; uniq|]. split; [vm_compute; reflexivity|].
  split; [vm_compute; reflexivity|]. left. reflexivity.
Qed.

Print Assumptions C103_meaning_partial.
Print Assumptions C103_accepted_partial.
Print Assumptions C103_one_meaning_partial.
Print Assumptions C103_well_formed_partial.
Print Assumptions C103_traced_partial.
Print Assumptions C103_identifier_partial.
Print Assumptions C103_ids_partial.
Print Assumptions C103_outcomes_partial.
Print Assumptions C103_name_cut_refuted.
Print Assumptions C103_further_bindings_refuted.
Print Assumptions C103_same_service_id_refuted.
Print Assumptions C103_too_many_slots_refuted.
Print Assumptions C103_no_slots_refuted.
Print Assumptions C103_unknown_method_refuted.
Print Assumptions C103_misspelt_refuted.
Print Assumptions C103_no_binding_refuted.
