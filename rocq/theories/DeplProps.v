(** Which JSON objects are accepted as the text of a deployment and what they are read as (C98), what
    the equality and the compatibility of deployments mean (C97), and the number of sample slots an
    event gets (C94). *)
From Coq Require Import String.
From Verif Require Import Base NamesModel DeplModel ConfModel DeplProofs IdentProps.
Open Scope N_scope.

(** * Specification vocabulary: an object describes a value *)

(** the member [k] of the object is the number [n] below [lim], the flag [b], the text [s], an object *)
Definition has_num (lim : N) (o : object) (k : name) (n : N) : Prop := find k o = Some (JNum n) /\ n < lim.
Definition has_bool (o : object) (k : name) (b : bool) : Prop := find k o = Some (JBool b).
Definition has_text (o : object) (k : name) (s : name) : Prop := find k o = Some (JStr s).
Definition has_obj (o : object) (k : name) (x : object) : Prop := find k o = Some (JObj x).
(** an optional number: absent, or present and in range *)
Definition has_opt (lim : N) (o : object) (k : name) (v : option N) : Prop :=
  match v with Some n => has_num lim o k n | None => find k o = None end.
Definition has_version (o : object) : Prop := find k_version o = Some (JNum 1).
(** the member [k] is an object whose members describe the entries of [m] one by one, under keys that
    are all different *)
Definition has_map {A} (R : json -> A -> Prop) (o : object) (k : name) (m : list (name * A)) : Prop :=
  exists x, has_obj o k x /\ NoDup (map fst m) /\
    Forall2 (fun e f => fst e = fst f /\ R (snd e) (snd f)) x m.
Definition is_obj {A} (R : object -> A -> Prop) (j : json) (a : A) : Prop := exists o, j = JObj o /\ R o a.

Definition describes_event (o : object) (e : event_depl) : Prop :=
  has_version o /\ has_opt two16 o k_slots (ev_slots e) /\ has_opt two8 o k_subs (ev_subs e) /\
  has_opt two8 o k_allocs (ev_allocs e) /\ has_bool o k_enforce (ev_enforce e) /\
  (has_num two8 o k_tracing (ev_tracing e) \/ find k_tracing o = None /\ ev_tracing e = 0).
Definition describes_field (o : object) (f : field_depl) : Prop :=
  describes_event o (fd_event f) /\ has_bool o k_get (fd_get f) /\ has_bool o k_set (fd_set f).
Definition describes_method (o : object) (m : method_depl) : Prop :=
  has_opt two8 o k_queue (md_queue m) /\ has_bool o k_use (md_use m).
Definition describes_service (o : object) (s : service) : Prop :=
  has_version o /\ has_text o k_type_name (sv_name s) /\
  exists v, has_obj o k_service_version v /\ has_version v /\
    has_num two32 v k_major (sv_major s) /\ has_num two32 v k_minor (sv_minor s).
(** a list of user ids, each below 2^32 *)
Definition describes_users (j : json) (l : list N) : Prop :=
  j = JList (map JNum l) /\ (forall u, In u l -> u < two32).
Definition has_users (o : object) (k : name) (m : list (name * list N)) : Prop :=
  has_map describes_users o k m /\ (forall n l, In (n, l) m -> exists q, n = quality_text q).
Definition describes_id (o : object) (v : option N) : Prop :=
  match v with
  | None => find k_instance_id o = None
  | Some i => exists x, has_obj o k_instance_id x /\ has_version x /\ has_num two16 x k_instance_id i
  end.
Definition describes_lola (o : object) (d : lola_inst) : Prop :=
  has_version o /\ describes_id o (li_id d) /\
  has_opt two64 o k_shm_size (li_shm d) /\ has_opt two64 o k_b_size (li_b d) /\
  has_opt two64 o k_qm_size (li_qm d) /\
  has_map (is_obj describes_event) o k_events (li_events d) /\
  has_map (is_obj describes_field) o k_fields (li_fields d) /\
  has_map (is_obj describes_method) o k_methods (li_methods d) /\
  has_bool o k_strict (li_strict d) /\
  has_users o k_consumer (li_consumer d) /\ has_users o k_provider (li_provider d) /\
  has_bool o k_vm (li_vm d) /\ has_bool o k_vm_forwarded (li_forwarded d).
Definition describes_inst (o : object) (d : inst_depl) : Prop :=
  has_version o /\ has_text o k_asil (quality_text (in_asil d)) /\
  (exists s, has_text o k_spec s /\ create_specifier s = Some (in_spec d)) /\
  (exists s, has_obj o k_service s /\ describes_service s (in_service d)) /\
  match in_binding d with
  | BLola l => find k_index o = Some (JNum 0) /\ exists x, has_obj o k_binding x /\ describes_lola x l
  | BBlank => find k_index o = Some (JNum 1)
  end.
Definition describes_number (j : json) (n : N) : Prop := j = JNum n /\ n < two16.
Definition describes_type (o : object) (t : type_depl) : Prop :=
  has_version o /\
  match t with
  | TLola l => find k_index o = Some (JNum 0) /\ exists x, has_obj o k_binding x /\
      has_version x /\ has_num two16 x k_service_id (lt_id l) /\
      has_map describes_number x k_events (lt_events l) /\
      has_map describes_number x k_fields (lt_fields l) /\
      has_map describes_number x k_methods (lt_methods l)
  | TBlank => find k_index o = Some (JNum 1)
  end.

(** * Reading primitives *)

Lemma bind_done {A B} (x : out A) (f : A -> out B) b :
  bind x f = Done b <-> exists a, x = Done a /\ f a = Done b.
Proof.
  destruct x as [a| |]; cbn [bind]; split.
  - intros H. exists a. auto.
  - intros (a' & E & H). injection E as <-. exact H.
  - discriminate.
  - intros (a' & E & _). discriminate.
  - discriminate.
  - intros (a' & E & _). discriminate.
Qed.
Lemma get_num_done lim o k n : get_num lim o k = Done n <-> has_num lim o k n.
Proof.
  unfold get_num, has_num. destruct (find k o) as [[m| | | | |]|]; try (split; [discriminate|intros [H _]; discriminate]).
  destruct (N.ltb_spec m lim); split.
  - intros E; injection E as <-; auto.
  - intros [E _]; injection E as <-; reflexivity.
  - discriminate.
  - intros [E L]; injection E as <-; lia.
Qed.
Lemma get_opt_done lim o k v : get_opt_num lim o k = Done v <-> has_opt lim o k v.
Proof.
  unfold get_opt_num, has_opt, has_num. destruct (find k o) as [j|] eqn:F.
  - assert (D : forall n, j = JNum n -> (if n <? lim then Done (Some n) else Terminates) = Done v <->
        match v with Some x => Some j = Some (JNum x) /\ x < lim | None => Some j = None end).
    { intros n ->. destruct (N.ltb_spec n lim); destruct v as [x|]; split; try discriminate.
      - intros E; injection E as <-; auto.
      - intros [E _]; injection E as <-; reflexivity.
      - intros [E L]; injection E as <-; lia. }
    destruct j; try (destruct v as [x|]; split; [discriminate|intros H; try destruct H as [H _]; discriminate
                                                |discriminate|intros H; discriminate]).
    apply D. reflexivity.
  - destruct v as [n|]; split; auto; try discriminate. intros [E _]; discriminate.
Qed.
Lemma get_bool_done o k b : get_bool o k = Done b <-> has_bool o k b.
Proof.
  unfold get_bool, has_bool. destruct (find k o) as [[| | | | |]|]; split; intros E; try discriminate;
    injection E as <-; reflexivity.
Qed.
Lemma get_str_done o k b : get_str o k = Done b <-> has_text o k b.
Proof.
  unfold get_str, has_text. destruct (find k o) as [[| | | | |]|]; split; intros E; try discriminate;
    injection E as <-; reflexivity.
Qed.
Lemma get_obj_done o k b : get_obj o k = Done b <-> has_obj o k b.
Proof.
  unfold get_obj, has_obj. destruct (find k o) as [[| | | | |]|]; split; intros E; try discriminate;
    injection E as <-; reflexivity.
Qed.
Lemma check_done o u : check_version o = Done u <-> has_version o.
Proof.
  unfold check_version. rewrite bind_done. setoid_rewrite get_num_done. unfold has_num, has_version. split.
  - intros (a & [E _] & H). destruct (N.eqb_spec a 1); [subst; exact E|discriminate].
  - intros E. exists 1. rewrite E. destruct u. repeat split.
Qed.

Opaque check_version map_from_json.

(** every entry is read, keys met twice are refused *)
Lemma entries_done {A} (des : json -> out A) (R : json -> A -> Prop) :
  (forall j a, des j = Done a <-> R j a) -> forall o seen m,
  NoDup (map fst seen) ->
  entries_from des o seen = Done m <->
  exists t, m = rev seen ++ t /\ NoDup (map fst m) /\
    Forall2 (fun e f => fst e = fst f /\ R (snd e) (snd f)) o t.
Proof.
  intros HR. induction o as [|[k j] o IH]; intros seen m Hd; cbn [entries_from].
  - split.
    + intros E. injection E as <-. exists []. rewrite app_nil_r. split; [reflexivity|].
      split; [|constructor]. rewrite map_rev. apply NoDup_rev, Hd.
    + intros (t & -> & _ & H). inversion H; subst. rewrite app_nil_r. reflexivity.
  - rewrite bind_done. split.
    + intros (v & E & H). destruct (find k seen) eqn:F; [discriminate|].
      apply find_none in F. apply IH in H; [|cbn [map fst]; constructor; auto].
      destruct H as (t & -> & Hn & H). exists ((k, v) :: t). cbn [rev] in *.
      rewrite <- app_assoc in *. cbn [app] in *. split; [reflexivity|]. split; [exact Hn|].
      constructor; [|exact H]. cbn [fst snd]. split; [reflexivity|]. apply HR, E.
    + intros (t & -> & Hn & H). inversion H as [|e1 [k' v] o' t' Hk Ht]; subst. cbn [fst snd] in Hk.
      destruct Hk as [<- Hk]. exists v. split; [apply HR, Hk|].
      assert (F : find k seen = None).
      { apply find_none. intros Hi. rewrite map_app, map_rev in Hn. cbn [map fst] in Hn.
        apply NoDup_remove_2 in Hn. apply Hn. apply in_or_app. left. apply in_rev in Hi. exact Hi. }
      rewrite F. apply IH.
      * cbn [map fst]. constructor; [apply find_none, F|exact Hd].
      * exists t'. cbn [rev]. rewrite <- app_assoc. cbn [app]. auto.
Qed.
Transparent map_from_json.
Lemma map_done {A} (des : json -> out A) (R : json -> A -> Prop) o k m :
  (forall j a, des j = Done a <-> R j a) -> map_from_json des o k = Done m <-> has_map R o k m.
Proof.
  intros HR. unfold map_from_json, has_map. rewrite bind_done. split.
  - intros (x & E & H). apply get_obj_done in E. apply (entries_done des R HR) in H; [|constructor].
    destruct H as (t & -> & Hn & H). exists x. auto.
  - intros (x & E & Hn & H). exists x. split; [apply get_obj_done, E|].
    apply (entries_done des R HR); [constructor|]. exists m. auto.
Qed.
Opaque map_from_json.
Lemma as_object_done {A} (f : object -> out A) (R : object -> A -> Prop) :
  (forall o a, f o = Done a <-> R o a) -> forall j a, as_object f j = Done a <-> is_obj R j a.
Proof.
  intros H j a. unfold as_object, is_obj. destruct j; split; try discriminate;
    try (intros (o' & E & _); discriminate).
  - intros E. exists o. split; [reflexivity|]. apply H, E.
  - intros (o' & E & K). injection E as <-. apply H, K.
Qed.

(** * Reading the parts *)

Lemma des_event_done o e : des_event o = Done e <-> describes_event o e.
Proof.
  unfold des_event, describes_event. repeat (rewrite bind_done || setoid_rewrite bind_done).
  setoid_rewrite check_done. setoid_rewrite get_opt_done. setoid_rewrite get_bool_done. split.
  - intros (u & Hv & s & Hs & b & Hb & a & Ha & f & Hf & t & Ht & E). injection E as <-.
    cbn [ev_slots ev_subs ev_allocs ev_enforce ev_tracing]. repeat (split; [assumption|]).
    destruct t; cbn [has_opt] in Ht; auto.
  - destruct e as [s b a f t]. cbn [ev_slots ev_subs ev_allocs ev_enforce ev_tracing].
    intros (Hv & Hs & Hb & Ha & Hf & [Ht|[Ht ->]]); exists tt; split; auto; exists s; split; auto;
      exists b; split; auto; exists a; split; auto; exists f; split; auto.
    + exists (Some t). auto.
    + exists None. auto.
Qed.
Opaque des_event.
Lemma des_field_done o f : des_field o = Done f <-> describes_field o f.
Proof.
  unfold des_field, describes_field. repeat (rewrite bind_done || setoid_rewrite bind_done).
  setoid_rewrite des_event_done. setoid_rewrite get_bool_done. split.
  - intros (e & He & g & Hg & s & Hs & E). injection E as <-. auto.
  - destruct f as [e g s]. cbn [fd_event fd_get fd_set]. intros (He & Hg & Hs).
    exists e; split; auto; exists g; split; auto; exists s; auto.
Qed.
Opaque des_field.
Lemma des_method_done o m : des_method o = Done m <-> describes_method o m.
Proof.
  unfold des_method, describes_method. repeat (rewrite bind_done || setoid_rewrite bind_done).
  setoid_rewrite get_opt_done. setoid_rewrite get_bool_done. split.
  - intros (q & Hq & u & Hu & E). injection E as <-. auto.
  - destruct m as [q u]. cbn [md_queue md_use]. intros (Hq & Hu).
    exists q; split; auto; exists u; auto.
Qed.
Opaque des_method.
Lemma des_service_done o s : des_service o = Done s <-> describes_service o s.
Proof.
  unfold des_service, describes_service. repeat (rewrite bind_done || setoid_rewrite bind_done).
  setoid_rewrite get_str_done. setoid_rewrite get_obj_done. setoid_rewrite get_num_done.
  setoid_rewrite check_done. split.
  - intros (n & Hn & v & Hv & a & Ha & i & Hi & u & Hu & u' & Hu' & E). injection E as <-.
    cbn [sv_name sv_major sv_minor]. repeat (split; [assumption|]). exists v. auto.
  - destruct s as [n a i]. cbn [sv_name sv_major sv_minor]. intros (H1 & H2 & v & H3 & H4 & H5 & H6).
    exists n; split; auto; exists v; split; auto; exists a; split; auto; exists i; split; auto.
    exists tt; split; auto; exists tt; auto.
Qed.
Opaque des_service.
Lemma des_uids_done l m : des_uids l = Done m <-> l = map JNum m /\ (forall u, In u m -> u < two32).
Proof.
  revert m. induction l as [|j l IH]; intros m; cbn [des_uids].
  - split.
    + intros E; injection E as <-. split; [reflexivity|intros u []].
    + intros [E _]. destruct m; [reflexivity|discriminate].
  - assert (N : forall n, j <> JNum n -> ~ (j :: l = map JNum m /\ (forall u, In u m -> u < two32)) \/ True) by auto.
    clear N. destruct j; try (split; [discriminate|intros [E _]; destruct m; discriminate]).
    destruct (N.ltb_spec n two32).
    + rewrite bind_done. setoid_rewrite IH. split.
      * intros (r & [-> Hr] & E). injection E as <-. split; [reflexivity|].
        intros u [<-|Hu]; auto.
      * intros [E Hr]. destruct m as [|n' m]; [discriminate|]. injection E as -> ->.
        exists m. split; [|reflexivity]. split; [reflexivity|]. intros u Hu. apply Hr. right; exact Hu.
    + split; [discriminate|]. intros [E Hr]. destruct m as [|n' m]; [discriminate|]. injection E as -> ->.
      specialize (Hr n' (or_introl eq_refl)). lia.
Qed.
Lemma des_uid_list_done j m : des_uid_list j = Done m <-> describes_users j m.
Proof.
  unfold des_uid_list, describes_users.
  destruct j; try (split; [discriminate|intros [E _]; discriminate]).
  rewrite des_uids_done. split; intros [E H]; split; auto; congruence.
Qed.
Lemma quality_done s q : quality_of s = Done q <-> s = quality_text q.
Proof.
  unfold quality_of.
  destruct (name_eqb s (str "kInvalid")) eqn:E1.
  { apply name_eqb_eq in E1. subst s. destruct q; split; intros H; try discriminate; reflexivity. }
  destruct (name_eqb s (str "kASIL_QM")) eqn:E2.
  { apply name_eqb_eq in E2. subst s. destruct q; split; intros H; try discriminate; reflexivity. }
  destruct (name_eqb s (str "kASIL_B")) eqn:E3.
  { apply name_eqb_eq in E3. subst s. destruct q; split; intros H; try discriminate; reflexivity. }
  apply name_eqb_neq in E1, E2, E3. split; [discriminate|].
  intros ->. destruct q; cbn [quality_text] in *; congruence.
Qed.
Lemma des_uid_map_done o k m : des_uid_map o k = Done m <-> has_users o k m.
Proof.
  unfold des_uid_map, has_users. rewrite bind_done.
  setoid_rewrite (fun m => map_done des_uid_list describes_users o k m des_uid_list_done). split.
  - intros (x & Hx & E).
    destruct (forallb (fun e => match quality_of (fst e) with Done _ => true | _ => false end) x) eqn:F;
      [|discriminate].
    injection E as <-. split; [exact Hx|]. intros n l Hi. rewrite forallb_forall in F.
    specialize (F _ Hi). cbn [fst] in F. destruct (quality_of n) as [q| |] eqn:Q; try discriminate.
    exists q. apply quality_done, Q.
  - intros [Hx Hq]. exists m. split; [exact Hx|].
    destruct (forallb (fun e => match quality_of (fst e) with Done _ => true | _ => false end) m) eqn:F;
      [reflexivity|]. exfalso.
    assert (F' : forallb (fun e => match quality_of (fst e) with Done _ => true | _ => false end) m = true).
    { apply forallb_forall. intros [n l] Hi. cbn [fst]. destruct (Hq n l Hi) as (q & Q).
      apply quality_done in Q. rewrite Q. reflexivity. }
    congruence.
Qed.
Opaque des_uid_map.
Lemma des_opt_id_done o v : des_opt_id o = Done v <-> describes_id o v.
Proof.
  unfold des_opt_id, describes_id, has_obj. destruct (find k_instance_id o) as [j|].
  - assert (D : forall x, (i <- des_instance_id x ;; Done (Some i)) = Done v <->
        exists i, v = Some i /\ has_version x /\ has_num two16 x k_instance_id i).
    { intros x. unfold des_instance_id. rewrite bind_done. setoid_rewrite bind_done.
      setoid_rewrite bind_done. setoid_rewrite get_num_done. setoid_rewrite check_done. split.
      - intros (i & (i' & Hi & u & Hu & E) & E'). injection E as <-. injection E' as <-.
        exists i'. auto.
      - intros (i & -> & Hv & Hi). exists i. split; [|reflexivity]. exists i. split; [exact Hi|].
        exists tt. auto. }
    destruct j; try (destruct v; (split; [discriminate|]);
                     [intros (x & E & _); discriminate|discriminate]).
    rewrite D. destruct v as [i|]; split.
    + intros (i' & E & H1 & H2). injection E as <-. exists o0. auto.
    + intros (x & E & H1 & H2). injection E as <-. exists i. auto.
    + intros (i' & E & _). discriminate.
    + discriminate.
  - destruct v; split; auto; try discriminate. intros (x & E & _). discriminate.
Qed.
Opaque des_opt_id.
Lemma des_lola_done o d : des_lola_inst o = Done d <-> describes_lola o d.
Proof.
  unfold des_lola_inst, describes_lola. repeat (rewrite bind_done || setoid_rewrite bind_done).
  setoid_rewrite (fun m => map_done _ _ o k_events m (as_object_done _ _ des_event_done)).
  setoid_rewrite (fun m => map_done _ _ o k_fields m (as_object_done _ _ des_field_done)).
  setoid_rewrite (fun m => map_done _ _ o k_methods m (as_object_done _ _ des_method_done)).
  setoid_rewrite get_bool_done. setoid_rewrite des_uid_map_done. setoid_rewrite check_done.
  setoid_rewrite des_opt_id_done. setoid_rewrite get_opt_done. split.
  - intros (e & He & f & Hf & m & Hm & s & Hs & c & Hc & p & Hp & v & Hv & w & Hw & u & Hu & i & Hi &
            x & Hx & b & Hb & q & Hq & E). injection E as <-.
    cbn [li_id li_shm li_b li_qm li_events li_fields li_methods li_strict li_consumer li_provider li_vm
         li_forwarded]. auto 20.
  - destruct d as [i x b q e f m s c p v w].
    cbn [li_id li_shm li_b li_qm li_events li_fields li_methods li_strict li_consumer li_provider li_vm
         li_forwarded].
    intros (H1 & H2 & H3 & H4 & H5 & H6 & H7 & H8 & H9 & H10 & H11 & H12 & H13).
    exists e; split; auto; exists f; split; auto; exists m; split; auto; exists s; split; auto;
    exists c; split; auto; exists p; split; auto; exists v; split; auto; exists w; split; auto;
    exists tt; split; auto; exists i; split; auto; exists x; split; auto; exists b; split; auto;
    exists q; auto.
Qed.
Opaque des_lola_inst.
Lemma des_id_done j n : des_id j = Done n <-> describes_number j n.
Proof.
  unfold des_id, describes_number. destruct j; try (split; [discriminate|intros [E _]; discriminate]).
  destruct (N.ltb_spec n0 two16); split.
  - intros E; injection E as <-; auto.
  - intros [E _]; injection E as <-; reflexivity.
  - discriminate.
  - intros [E L]; injection E as <-; lia.
Qed.

(** * C98 (complement): exactly which objects are read, and as what *)

(** An object is read as a service instance deployment exactly when it describes one: version 1
    everywhere, a binding index of 0 or 1, known quality levels, every number in range, no name twice;
    and the result is what the object describes. *)
Theorem C98_instance_read_partial o d : des_inst o = Done d <-> describes_inst o d.
Proof.
  unfold des_inst, describes_inst. repeat (rewrite bind_done || setoid_rewrite bind_done).
  setoid_rewrite get_obj_done. setoid_rewrite des_service_done. setoid_rewrite get_num_done.
  setoid_rewrite get_str_done. setoid_rewrite quality_done. setoid_rewrite check_done. split.
  - intros (so & Hso & s & Hs & i & [Hi _] & b & Hb & qt & Hqt & q & -> & sp & Hsp & sp' & Hsp' & u & Hu & E).
    injection E as <-. cbn [in_service in_binding in_asil in_spec].
    split; [exact Hu|]. split; [exact Hqt|]. split.
    { exists sp. split; [exact Hsp|].
      destruct (create_specifier sp); [|discriminate]. injection Hsp' as ->. reflexivity. }
    split; [exists so; auto|].
    destruct (N.eqb_spec i 0) as [->|N0].
    + apply bind_done in Hb. destruct Hb as (x & Hx & Hb). apply bind_done in Hb.
      destruct Hb as (l & Hl & E). injection E as <-. split; [exact Hi|]. exists x.
      split; [apply get_obj_done, Hx|apply des_lola_done, Hl].
    + destruct (N.eqb_spec i 1) as [->|N1]; [|discriminate]. injection Hb as <-. exact Hi.
  - destruct d as [s b q sp]. cbn [in_service in_binding in_asil in_spec].
    intros (Hv & Hq & (t & Ht & Hc) & (so & Hso & Hs) & Hb).
    exists so; split; auto; exists s; split; auto.
    destruct b as [l|].
    + destruct Hb as (Hi & x & Hx & Hl). exists 0. split; [split; [exact Hi|reflexivity]|].
      exists (BLola l). cbn [N.eqb]. split.
      { apply bind_done. exists x. split; [apply get_obj_done, Hx|]. apply bind_done. exists l.
        split; [apply des_lola_done, Hl|reflexivity]. }
      exists (quality_text q); split; auto; exists q; split; auto; exists t; split; auto; exists sp.
      rewrite Hc. split; auto. exists tt; auto.
    + exists 1. split; [split; [exact Hb|reflexivity]|]. exists BBlank. cbn [N.eqb Pos.eqb]. split; [reflexivity|].
      exists (quality_text q); split; auto; exists q; split; auto; exists t; split; auto; exists sp.
      rewrite Hc. split; auto. exists tt; auto.
Qed.
(** The same for service type deployments. *)
Theorem C98_type_read_partial o t : des_type o = Done t <-> describes_type o t.
Proof.
  unfold des_type, describes_type. repeat (rewrite bind_done || setoid_rewrite bind_done).
  setoid_rewrite get_num_done. setoid_rewrite check_done. split.
  - intros (i & [Hi _] & t' & Hb & u & Hu & E). injection E as <-. split; [exact Hu|].
    destruct (N.eqb_spec i 0) as [->|N0].
    + apply bind_done in Hb. destruct Hb as (x & Hx & Hb). apply bind_done in Hb.
      destruct Hb as (l & Hl & E). injection E as <-. split; [exact Hi|]. exists x.
      split; [apply get_obj_done, Hx|].
      unfold des_lola_type in Hl. apply bind_done in Hl. destruct Hl as (n & Hn & Hl).
      apply bind_done in Hl. destruct Hl as (e & He & Hl). apply bind_done in Hl. destruct Hl as (f & Hf & Hl).
      apply bind_done in Hl. destruct Hl as (m & Hm & Hl). apply bind_done in Hl. destruct Hl as (u' & Hu' & E).
      injection E as <-. cbn [lt_id lt_events lt_fields lt_methods].
      apply (map_done _ _ _ _ _ des_id_done) in He, Hf, Hm. apply get_num_done in Hn. apply check_done in Hu'.
      auto 10.
    + destruct (N.eqb_spec i 1) as [->|N1]; [|discriminate]. injection Hb as <-. exact Hi.
  - intros [Hv Hb]. destruct t as [[n e f m]|].
    + cbn [lt_id lt_events lt_fields lt_methods] in Hb.
      destruct Hb as (Hi & x & Hx & Hxv & Hn & He & Hf & Hm). exists 0. split; [split; [exact Hi|reflexivity]|].
      exists (TLola (mkLt n e f m)). cbn [N.eqb]. split.
      { apply bind_done. exists x. split; [apply get_obj_done, Hx|]. apply bind_done. exists (mkLt n e f m).
        split; [|reflexivity]. unfold des_lola_type.
        apply bind_done. exists n. split; [apply get_num_done, Hn|].
        apply bind_done. exists e. split; [apply (map_done _ _ _ _ _ des_id_done), He|].
        apply bind_done. exists f. split; [apply (map_done _ _ _ _ _ des_id_done), Hf|].
        apply bind_done. exists m. split; [apply (map_done _ _ _ _ _ des_id_done), Hm|].
        apply bind_done. exists tt. split; [apply check_done, Hxv|reflexivity]. }
      exists tt; auto.
    + exists 1. split; [split; [exact Hb|reflexivity]|]. exists TBlank. cbn [N.eqb Pos.eqb]. split; [reflexivity|].
      exists tt; auto.
Qed.

(** A number that does not fit ends the process rather than being cut off; here for the index of the
    binding, whose type is signed and 64 bits wide. *)
Theorem C98_index_range_partial o i :
  find k_index o = Some (JNum i) -> 1 < i -> des_type o = Terminates.
Proof.
  intros F L. unfold des_type, get_num. rewrite F. destruct (i <? two63); [|reflexivity]. cbn [bind].
  destruct (N.eqb_spec i 0); [lia|]. destruct (N.eqb_spec i 1); [lia|reflexivity].
Qed.

Transparent check_version map_from_json des_event des_field des_method des_service des_uid_map des_opt_id
  des_lola_inst.

(** * C97 (complement): equality and compatibility of deployments *)

Lemma ids_eqb_spec a b : NoDup (map fst a) -> NoDup (map fst b) ->
  map_eqb N.eqb a b = true <-> same_entries a b.
Proof.
  intros Ha Hb. rewrite map_eqb_spec by assumption. unfold same_entries. split; intros H k; specialize (H k).
  - destruct (find k a), (find k b); try tauto. apply N.eqb_eq in H. congruence.
  - rewrite H. destruct (find k b); [apply N.eqb_refl|exact I].
Qed.

(** Two service type deployments compare equal exactly when all their contents agree. *)
Theorem C97_type_equality_partial a b : wf_type a -> wf_type b -> type_eqb a b = true <-> same_type a b.
Proof.
  destruct a as [x|], b as [y|]; cbn [wf_type type_eqb same_type]; try tauto; try (split; [discriminate|tauto]).
  intros (_ & [A1 _] & [A2 _] & [A3 _]) (_ & [B1 _] & [B2 _] & [B3 _]). unfold lola_type_eqb.
  rewrite !andb_true_iff, N.eqb_eq, !ids_eqb_spec by assumption. tauto.
Qed.

(** Two instance deployments are compatible exactly when they have the same quality level, both use the
    LoLa binding, and their instance ids do not differ, a missing one matching every other. *)
Definition may_be_same_instance (a b : lola_inst) : Prop :=
  match li_id a, li_id b with Some x, Some y => x = y | _, _ => True end.
Theorem C97_compatible_partial a b :
  inst_compatible a b = true <->
  in_asil a = in_asil b /\
  exists x y, in_binding a = BLola x /\ in_binding b = BLola y /\ may_be_same_instance x y.
Proof.
  unfold inst_compatible, may_be_same_instance, lola_inst_compatible. rewrite andb_true_iff.
  assert (Q : quality_eqb (in_asil a) (in_asil b) = true <-> in_asil a = in_asil b).
  { destruct (in_asil a), (in_asil b); unfold quality_eqb; cbn; split; auto; discriminate. }
  rewrite Q. split.
  - intros [E H]. split; [exact E|]. destruct (in_binding a) as [x|], (in_binding b) as [y|]; try discriminate.
    exists x, y. repeat split. destruct (li_id x), (li_id y); auto. apply N.eqb_eq, H.
  - intros (E & x & y & -> & -> & H). split; [exact E|]. destruct (li_id x), (li_id y); auto.
    apply N.eqb_eq, H.
Qed.
(** so compatibility is not an equivalence: two instances that differ are both compatible with one
    without an id *)
Theorem C97_compatible_transitive_refuted :
  exists a b c, inst_compatible a b = true /\ inst_compatible b c = true /\ inst_compatible a c = false.
Proof.
  pose (l i := mkLi i None None None [] [] [] false [] [] false false).
  pose (d i := mkInst (mkSv (str "/s") 1 0) (BLola (l i)) QQM (str "s")).
  exists (d (Some 1)), (d None), (d (Some 2)). vm_compute. auto.
Qed.

(** * C94 (complement): the number of sample slots of an event *)

(** Without a configured number there is none; otherwise it is the configured number plus the slots for
    tracing, and the process ends exactly when that does not fit 16 bits. *)
Theorem C94_sample_slots_partial e :
  match ev_slots e with
  | None => sample_slots e = Done None
  | Some n => (n + ev_tracing e < 65536 -> sample_slots e = Done (Some (n + ev_tracing e))) /\
              (65536 <= n + ev_tracing e -> sample_slots e = Terminates)
  end.
Proof.
  unfold sample_slots. destruct (ev_slots e) as [n|]; [|reflexivity].
  destruct (N.ltb_spec 65535 (n + ev_tracing e)); split; intros; try reflexivity; lia.
Qed.

(** * Non-vacuity *)

Definition ex_event_text : object :=
  [(k_enforce, JBool true); (k_slots, JNum 5); (k_version, JNum 1)].
Example ex_event_read : describes_event ex_event_text (mkEv (Some 5) None None true 0).
Proof. repeat split; try reflexivity. right. split; reflexivity. Qed.
(** a whole instance deployment, with an event and a list of users *)
Definition ex_inst_text : object :=
  ser_inst (mkInst (mkSv (str "/s") 1 0)
    (BLola (mkLi (Some 3) (Some 1000) None None [(str "e", mkEv (Some 5) None None true 0)] [] []
                 true [(str "kASIL_QM", [7; 8])] [] false false)) QQM (str "a/b")).
Example ex_inst_described : exists d, describes_inst ex_inst_text d /\
  match in_binding d with
  | BLola l => li_id l = Some 3 /\ find (str "kASIL_QM") (li_consumer l) = Some [7; 8]
  | BBlank => False
  end.
Proof.
  destruct (des_inst ex_inst_text) as [d| |] eqn:E; try (vm_compute in E; discriminate).
  exists d. split; [apply C98_instance_read_partial, E|]. vm_compute in E. injection E as <-. vm_compute. auto.
Qed.
(** an unknown version, an unknown quality level and a user id out of range are refused *)
Example ex_refused :
  des_inst (put k_version (JNum 0) ex_inst_text) = Terminates /\
  des_inst (put k_asil (JStr (str "kASIL_D")) ex_inst_text) = Terminates /\
  des_uid_map [(k_consumer, JObj [(str "kASIL_D", JList [])])] k_consumer = Terminates /\
  des_uid_map [(k_consumer, JObj [(str "kASIL_B", JList [JNum 4294967296])])] k_consumer = Terminates.
Proof. vm_compute. auto. Qed.
Example ex_type_wf : wf_type (TLola (mkLt 7 [(str "e", 1); (str "f", 2)] [] [])).
Proof.
  assert (W : wf_ids [(str "e", 1); (str "f", 2)]).
  { split.
    - constructor; [intros [H|[]]; discriminate|]. constructor; [intros []|constructor].
    - intros k n [E|[E|[]]]; injection E as <- <-; reflexivity. }
  assert (W0 : wf_ids []) by (split; [constructor|intros k n []]).
  split; [reflexivity|]. auto.
Qed.
Example ex_slots : sample_slots (mkEv (Some 65500) None None true 40) = Terminates /\
  sample_slots (mkEv (Some 65500) None None true 35) = Done (Some 65535).
Proof. vm_compute. auto. Qed.

Print Assumptions C98_instance_read_partial.
Print Assumptions C98_type_read_partial.
Print Assumptions C98_index_range_partial.
Print Assumptions C97_type_equality_partial.
Print Assumptions C97_compatible_partial.
Print Assumptions C97_compatible_transitive_refuted.
Print Assumptions C94_sample_slots_partial.
