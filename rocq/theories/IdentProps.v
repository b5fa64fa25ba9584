(** Identifiers of service instances: passing them between processes as strings (C96), comparing and
    hashing them (C97), creating them from arbitrary strings (C98). *)
From Coq Require Import String Sorting.Permutation.
From Verif Require Import Base NamesModel DeplModel ConfModel DeplProofs.
Open Scope N_scope.

(** * Specification vocabulary *)

(** Two values for every key *)
Definition same_entries {A} (a b : list (name * A)) : Prop := forall k, find k a = find k b.

(** Two deployments of a LoLa service instance describe the same thing: all settings agree *)
Definition same_lola (a b : lola_inst) : Prop :=
  li_id a = li_id b /\ li_shm a = li_shm b /\ li_b a = li_b b /\ li_qm a = li_qm b /\
  same_entries (li_events a) (li_events b) /\ same_entries (li_fields a) (li_fields b) /\
  same_entries (li_methods a) (li_methods b) /\ li_strict a = li_strict b /\
  same_entries (li_consumer a) (li_consumer b) /\ same_entries (li_provider a) (li_provider b) /\
  li_vm a = li_vm b /\ li_forwarded a = li_forwarded b.
Definition same_inst (a b : inst_depl) : Prop :=
  in_service a = in_service b /\ in_asil a = in_asil b /\ in_spec a = in_spec b /\
  match in_binding a, in_binding b with
  | BLola x, BLola y => same_lola x y
  | BBlank, BBlank => True
  | _, _ => False
  end.
Definition same_type (a b : type_depl) : Prop :=
  match a, b with
  | TLola x, TLola y =>
      lt_id x = lt_id y /\ same_entries (lt_events x) (lt_events y) /\
      same_entries (lt_fields x) (lt_fields y) /\ same_entries (lt_methods x) (lt_methods y)
  | TBlank, TBlank => True
  | _, _ => False
  end.

(** No event or field has slots for tracing *)
Definition no_tracing (d : inst_depl) : Prop :=
  match in_binding d with
  | BLola l => (forall k e, In (k, e) (li_events l) -> ev_tracing e = 0) /\
               (forall k f, In (k, f) (li_fields l) -> ev_tracing (fd_event f) = 0)
  | BBlank => True
  end.

(** The deployment with its numbers of tracing slots set to 0 *)
Definition without_tracing (d : inst_depl) : inst_depl :=
  mkInst (in_service d)
    (match in_binding d with
     | BLola l => BLola (mkLi (li_id l) (li_shm l) (li_b l) (li_qm l)
                           (map_snd untraced_event (li_events l)) (map_snd untraced_field (li_fields l))
                           (li_methods l) (li_strict l) (li_consumer l) (li_provider l)
                           (li_vm l) (li_forwarded l))
     | BBlank => BBlank
     end) (in_asil d) (in_spec d).

(** A configuration that neither has the service type nor the instance *)
Definition unknown_in (d : inst_depl) (c : conf) : Prop :=
  c_types c <> [] /\ c_insts c <> [] /\
  get_type c (in_service d) = None /\ get_inst c (in_spec d) = None.

(** The lookups of every key but the two of [d] are the same *)
Definition only_adds (d : inst_depl) (c c' : conf) : Prop :=
  (forall s, service_eqb s (in_service d) = false -> get_type c' s = get_type c s) /\
  (forall k, k <> in_spec d -> get_inst c' k = get_inst c k) /\ c_level c' = c_level c.

(** * Facts about the normal form *)
Lemma find_untraced_event k m : NoDup (map fst m) ->
  find k (map_snd untraced_event (sorted m)) = option_map untraced_event (find k m).
Proof. intros H. rewrite find_map_snd, find_sorted by exact H. reflexivity. Qed.
Lemma find_untraced_field k m : NoDup (map fst m) ->
  find k (map_snd untraced_field (sorted m)) = option_map untraced_field (find k m).
Proof. intros H. rewrite find_map_snd, find_sorted by exact H. reflexivity. Qed.

Lemma norm_same d : wf_inst d -> same_inst (norm_inst d) (without_tracing d).
Proof.
  intros (_ & _ & H). unfold same_inst, norm_inst, without_tracing. cbn [in_service in_asil in_spec in_binding].
  repeat split. destruct (in_binding d) as [l|]; [|exact I].
  destruct H as (H1 & H2 & H3 & H4 & [H5 _] & [H6 _] & [H7 _] & [H8 _] & [H9 _]).
  unfold same_lola, norm_lola, same_entries.
  cbn [li_id li_shm li_b li_qm li_events li_fields li_methods li_strict li_consumer li_provider li_vm li_forwarded].
  repeat split; intros k.
  - rewrite find_untraced_event by assumption. symmetry. apply find_map_snd.
  - rewrite find_untraced_field by assumption. symmetry. apply find_map_snd.
  - apply find_sorted, H7.
  - apply find_sorted, H8.
  - apply find_sorted, H9.
Qed.
Lemma norm_type_same t : wf_type t -> same_type (norm_type t) t.
Proof.
  destruct t as [x|]; cbn [wf_type norm_type same_type]; [|trivial].
  intros (H1 & [H2 _] & [H3 _] & [H4 _]). cbn [lt_id lt_events lt_fields lt_methods].
  unfold same_entries. repeat split; intros k; apply find_sorted; assumption.
Qed.

(** * Equality *)
Lemma opt_eqb_refl a : opt_eqb N.eqb a a = true.
Proof. destruct a; cbn; [apply N.eqb_refl|reflexivity]. Qed.
Lemma opt_eqb_eq a b : opt_eqb N.eqb a b = true <-> a = b.
Proof.
  destruct a, b; cbn [opt_eqb]; rewrite ?N.eqb_eq; split; congruence.
Qed.
Lemma event_eqb_eq a b : event_eqb a b = true <-> a = b.
Proof.
  unfold event_eqb. rewrite !andb_true_iff, !opt_eqb_eq, N.eqb_eq, Bool.eqb_true_iff.
  destruct a, b; cbn; split; [intros [[[[-> ->] ->] ->] ->]; reflexivity|intros [= -> -> -> -> ->]; auto].
Qed.
Lemma field_eqb_eq a b : field_eqb a b = true <-> a = b.
Proof.
  unfold field_eqb. rewrite !andb_true_iff, event_eqb_eq, !Bool.eqb_true_iff.
  destruct a, b; cbn; split; [intros [[-> ->] ->]; reflexivity|intros [= -> -> ->]; auto].
Qed.
Lemma method_eqb_eq a b : method_eqb a b = true <-> a = b.
Proof.
  unfold method_eqb. rewrite !andb_true_iff, opt_eqb_eq, !Bool.eqb_true_iff.
  destruct a, b; cbn; split; [intros [-> ->]; reflexivity|intros [= -> ->]; auto].
Qed.
Lemma vec_eqb_eq a b : vec_eqb a b = true <-> a = b.
Proof.
  revert b; induction a as [|x a IH]; intros [|y b]; cbn [vec_eqb]; try (split; congruence).
  rewrite andb_true_iff, N.eqb_eq, IH. split; [intros [-> ->]; reflexivity|intros [= -> ->]; auto].
Qed.
Lemma service_eqb_eq a b : service_eqb a b = true <-> a = b.
Proof.
  unfold service_eqb. rewrite !andb_true_iff, name_eqb_eq, !N.eqb_eq.
  destruct a, b; cbn; split; [intros [-> [-> ->]]; reflexivity|intros [= -> -> ->]; auto].
Qed.
Lemma quality_eqb_eq a b : quality_eqb a b = true <-> a = b.
Proof. destruct a, b; vm_compute; split; congruence. Qed.

Lemma map_eqb_entries {A} (eqb : A -> A -> bool) a b :
  (forall x y, eqb x y = true <-> x = y) -> NoDup (map fst a) -> NoDup (map fst b) ->
  map_eqb eqb a b = true <-> same_entries a b.
Proof.
  intros E Ha Hb. rewrite map_eqb_spec by assumption. unfold same_entries. split; intros H k; specialize (H k).
  - destruct (find k a), (find k b); try tauto. apply E in H. congruence.
  - rewrite H. destruct (find k b); [apply E|]; reflexivity || exact I.
Qed.

(** What operator== of two LoLa deployments compares: all but the inter-VM flags *)
Definition equal_lola (a b : lola_inst) : Prop :=
  li_id a = li_id b /\ li_shm a = li_shm b /\ li_b a = li_b b /\ li_qm a = li_qm b /\
  same_entries (li_events a) (li_events b) /\ same_entries (li_fields a) (li_fields b) /\
  same_entries (li_methods a) (li_methods b) /\ li_strict a = li_strict b /\
  same_entries (li_consumer a) (li_consumer b) /\ same_entries (li_provider a) (li_provider b).
Definition equal_binding (a b : binding) : Prop :=
  match a, b with
  | BLola x, BLola y => equal_lola x y
  | BBlank, BBlank => True
  | _, _ => False
  end.

(** The keys of the maps of a binding are distinct (what unordered_map guarantees) *)
Definition keys_ok (b : binding) : Prop :=
  match b with
  | BLola l => NoDup (map fst (li_events l)) /\ NoDup (map fst (li_fields l)) /\
               NoDup (map fst (li_methods l)) /\ NoDup (map fst (li_consumer l)) /\
               NoDup (map fst (li_provider l))
  | BBlank => True
  end.
Lemma wf_keys d : wf_inst d -> keys_ok (in_binding d).
Proof.
  intros (_ & _ & H). destruct (in_binding d) as [l|]; [|exact I].
  destruct H as (H1 & H2 & H3 & H4 & [H5 _] & [H6 _] & [H7 _] & [H8 _] & [H9 _]). cbn; auto.
Qed.
Lemma norm_keys d : wf_inst d -> keys_ok (in_binding (norm_inst d)).
Proof.
  intros H. apply wf_keys in H. unfold norm_inst. cbn [in_binding].
  destruct (in_binding d) as [l|]; [|exact I]. destruct H as (H5 & H6 & H7 & H8 & H9).
  cbn [keys_ok norm_lola li_events li_fields li_methods li_consumer li_provider].
  assert (M : forall A B (f : A -> B) m, map fst (map_snd f m) = map fst m).
  { intros. unfold map_snd. rewrite map_map. apply map_ext. intros [k v]; reflexivity. }
  rewrite !M. repeat split; apply sorted_keys; assumption.
Qed.

Lemma lola_inst_eqb_spec a b : keys_ok (BLola a) -> keys_ok (BLola b) ->
  lola_inst_eqb a b = true <-> equal_lola a b.
Proof.
  intros (A1 & A2 & A3 & A4 & A5) (B1 & B2 & B3 & B4 & B5). unfold lola_inst_eqb, equal_lola.
  rewrite !andb_true_iff, !opt_eqb_eq, Bool.eqb_true_iff.
  rewrite (map_eqb_entries event_eqb) by (assumption || apply event_eqb_eq).
  rewrite (map_eqb_entries field_eqb) by (assumption || apply field_eqb_eq).
  rewrite (map_eqb_entries method_eqb) by (assumption || apply method_eqb_eq).
  rewrite !(map_eqb_entries vec_eqb) by (assumption || apply vec_eqb_eq).
  tauto.
Qed.
Lemma binding_eqb_spec a b : keys_ok a -> keys_ok b -> binding_eqb a b = true <-> equal_binding a b.
Proof.
  destruct a as [a|], b as [b|]; cbn [binding_eqb equal_binding]; intros Ha Hb;
    [apply lola_inst_eqb_spec; assumption| | |]; split; congruence || tauto.
Qed.

Lemma equal_binding_refl a : equal_binding a a.
Proof. destruct a; [|exact I]. cbn. unfold equal_lola, same_entries. repeat split; reflexivity. Qed.
Lemma equal_binding_sym a b : equal_binding a b -> equal_binding b a.
Proof.
  destruct a, b; cbn; try tauto. unfold equal_lola, same_entries. intros H; decompose [and] H.
  repeat split; congruence.
Qed.
Lemma equal_binding_trans a b c : equal_binding a b -> equal_binding b c -> equal_binding a c.
Proof.
  destruct a, b, c; cbn; try tauto. unfold equal_lola, same_entries. intros H H'; decompose [and] H; decompose [and] H'.
  repeat split; congruence.
Qed.

(** ident_eqb in terms of the settings *)
Lemma ident_eqb_spec a b : keys_ok (in_binding (i_inst a)) -> keys_ok (in_binding (i_inst b)) ->
  ident_eqb a b = true <->
  in_service (i_inst a) = in_service (i_inst b) /\ in_asil (i_inst a) = in_asil (i_inst b) /\
  equal_binding (in_binding (i_inst a)) (in_binding (i_inst b)).
Proof.
  intros Ha Hb. unfold ident_eqb, inst_eqb.
  rewrite !andb_true_iff, service_eqb_eq, quality_eqb_eq, binding_eqb_spec by assumption. tauto.
Qed.

(** * Adding entries *)
Lemma find_type_cons s t m s0 : find_type s0 ((s, t) :: m) = if service_eqb s0 s then Some t else find_type s0 m.
Proof. reflexivity. Qed.
Lemma gen_type_emplace s t g s0 : g <> [] -> gen_type s g = None ->
  gen_type s0 (emplace_back (s, t) g) = if service_eqb s0 s then Some t else gen_type s0 g.
Proof.
  intros Hg. induction g as [|m g IH]; [congruence|]. intros Hn. cbn [gen_type] in Hn.
  destruct (find_type s m) eqn:E; [discriminate|]. destruct g as [|m' g].
  - cbn [emplace_back gen_type]. rewrite find_type_cons. destruct (service_eqb s0 s); reflexivity.
  - change (emplace_back (s, t) (m :: m' :: g)) with (m :: emplace_back (s, t) (m' :: g)).
    change (gen_type s0 (m :: emplace_back (s, t) (m' :: g)))
      with (match find_type s0 m with Some t' => Some t' | None => gen_type s0 (emplace_back (s, t) (m' :: g)) end).
    rewrite IH by (congruence || exact Hn).
    change (gen_type s0 (m :: m' :: g)) with (match find_type s0 m with Some t' => Some t' | None => gen_type s0 (m' :: g) end).
    destruct (service_eqb s0 s) eqn:Es; [|reflexivity].
    apply service_eqb_eq in Es. subst. rewrite E. reflexivity.
Qed.
Lemma gen_inst_emplace k d g k0 : g <> [] -> gen_inst k g = None ->
  gen_inst k0 (emplace_back (k, d) g) = if name_eqb k0 k then Some d else gen_inst k0 g.
Proof.
  intros Hg. induction g as [|m g IH]; [congruence|]. intros Hn. cbn [gen_inst] in Hn.
  destruct (find k m) eqn:E; [discriminate|]. destruct g as [|m' g].
  - cbn [emplace_back gen_inst find]. destruct (name_eqb k0 k); reflexivity.
  - change (emplace_back (k, d) (m :: m' :: g)) with (m :: emplace_back (k, d) (m' :: g)).
    change (gen_inst k0 (m :: emplace_back (k, d) (m' :: g)))
      with (match find k0 m with Some t' => Some t' | None => gen_inst k0 (emplace_back (k, d) (m' :: g)) end).
    rewrite IH by (congruence || exact Hn).
    change (gen_inst k0 (m :: m' :: g)) with (match find k0 m with Some t' => Some t' | None => gen_inst k0 (m' :: g) end).
    destruct (name_eqb k0 k) eqn:Es; [|reflexivity].
    apply name_eqb_eq in Es. subst. rewrite E. reflexivity.
Qed.
Lemma add_type_spec c s t c' : add_type c s t = Done c' ->
  get_type c s = None /\ c_types c <> [] /\ c_insts c' = c_insts c /\ c_level c' = c_level c /\
  forall s0, get_type c' s0 = if service_eqb s0 s then Some t else get_type c s0.
Proof.
  unfold add_type, get_type. destruct (c_types c) as [|m g] eqn:E; [discriminate|].
  destruct (gen_type s (m :: g)) eqn:Hn; [discriminate|]. intros [= <-]. cbn [c_types c_insts c_level].
  repeat split; [congruence|]. intros s0.
  apply (gen_type_emplace s t (m :: g) s0); [congruence|exact Hn].
Qed.
Lemma add_inst_spec c k d c' : add_inst c k d = Done c' ->
  get_inst c k = None /\ c_insts c <> [] /\ c_types c' = c_types c /\ c_level c' = c_level c /\
  forall k0, get_inst c' k0 = if name_eqb k0 k then Some d else get_inst c k0.
Proof.
  unfold add_inst, get_inst. destruct (c_insts c) as [|m g] eqn:E; [discriminate|].
  destruct (gen_inst k (m :: g)) eqn:Hn; [discriminate|]. intros [= <-]. cbn [c_types c_insts c_level].
  repeat split; [congruence|]. intros s0.
  apply (gen_inst_emplace k d (m :: g) s0); [congruence|exact Hn].
Qed.

(** * C96: passing an identifier to another process *)

Lemma from_json_round c d t tx : wf_inst d -> wf_type t -> unknown_in d c ->
  exists c', from_json c (ser_ident d t) tx = Done (mkIdent (norm_inst d) (norm_type t) tx, c') /\
    get_type c' (in_service d) = Some (norm_type t) /\ get_inst c' (in_spec d) = Some (norm_inst d) /\
    only_adds d c c'.
Proof.
  intros Hd Ht (U1 & U2 & U3 & U4). unfold from_json, ser_ident.
  rewrite check_version_ok by (gets; reflexivity). cbn [bind].
  rewrite (get_obj_ok _ k_inst_depl (ser_inst d)) by (gets; reflexivity). cbn [bind].
  rewrite inst_round by exact Hd. cbn [bind].
  rewrite (get_obj_ok _ k_type_depl (ser_type t)) by (gets; reflexivity). cbn [bind].
  rewrite type_round by exact Ht. cbn [bind].
  change (in_service (norm_inst d)) with (in_service d). change (in_spec (norm_inst d)) with (in_spec d).
  destruct (add_type c (in_service d) (norm_type t)) as [c1| |] eqn:E1.
  2,3: exfalso; unfold add_type, get_type in *; destruct (c_types c); [congruence|]; rewrite U3 in E1; discriminate.
  cbn [bind]. apply add_type_spec in E1. destruct E1 as (T1 & T2 & T3 & T4 & T5).
  destruct (add_inst c1 (in_spec d) (norm_inst d)) as [c2| |] eqn:E2.
  2,3: exfalso; unfold add_inst, get_inst in *; rewrite T3 in E2; destruct (c_insts c); [congruence|]; rewrite U4 in E2; discriminate.
  cbn [bind]. apply add_inst_spec in E2. destruct E2 as (S1 & S2 & S3 & S4 & S5).
  exists c2. split; [reflexivity|].
  assert (G : forall s, get_type c2 s = get_type c1 s) by (intros s; unfold get_type; rewrite S3; reflexivity).
  assert (G' : forall k, get_inst c1 k = get_inst c k) by (intros k; unfold get_inst; rewrite T3; reflexivity).
  split; [rewrite G, T5; rewrite (proj2 (service_eqb_eq _ _) eq_refl); reflexivity|].
  split; [rewrite S5, name_eqb_refl; reflexivity|].
  split; [|split; [|congruence]].
  - intros s Hs. rewrite G, T5, Hs. reflexivity.
  - intros k Hk. rewrite S5. apply name_eqb_neq in Hk. rewrite Hk. apply G'.
Qed.

(** Passing the text of an identifier to a process that knows neither the service nor the instance
    creates an identifier whose settings are those of the original except that all numbers of
    tracing slots are 0; the receiver's configuration gains exactly the two entries. *)
Theorem C96_content_partial : forall d t c,
  wf_inst d -> wf_type t -> unknown_in d c ->
  exists i' c', create (Some c) (i_text (make_ident d t)) = Created i' c' /\
    i_text i' = i_text (make_ident d t) /\
    same_inst (i_inst i') (without_tracing d) /\ same_type (i_type i') t /\
    get_inst c' (in_spec d) = Some (i_inst i') /\ get_type c' (in_service d) = Some (i_type i') /\
    only_adds d c c'.
Proof.
  intros d t c Hd Ht Hu.
  destruct (from_json_round c d t (written (ser_ident d t)) Hd Ht Hu) as (c' & E & G1 & G2 & G3).
  exists (mkIdent (norm_inst d) (norm_type t) (written (ser_ident d t))), c'.
  unfold create, make_ident, written at 1. cbn [i_text tx_json i_inst i_type]. 
  change (mkText (Some (JObj (ser_ident d t))) 0) with (written (ser_ident d t)). rewrite E.
  repeat split; try assumption; try apply norm_same; try apply norm_type_same; try assumption; apply G3.
Qed.

(** If no event or field has tracing slots, the created identifier is equal to the original, hashes
    the same and names the same instance. *)
Theorem C96_round_trip_partial : forall d t c,
  wf_inst d -> wf_type t -> unknown_in d c -> no_tracing d ->
  exists i' c', create (Some c) (i_text (make_ident d t)) = Created i' c' /\
    ident_eqb (make_ident d t) i' = true /\ hash_text i' = hash_text (make_ident d t) /\
    instance_id i' = instance_id (make_ident d t) /\ same_inst (i_inst i') d /\ same_type (i_type i') t.
Proof.
  intros d t c Hd Ht Hu Hn.
  destruct (from_json_round c d t (written (ser_ident d t)) Hd Ht Hu) as (c' & E & _).
  exists (mkIdent (norm_inst d) (norm_type t) (written (ser_ident d t))), c'.
  unfold create, make_ident, written at 1. cbn [i_text tx_json i_inst i_type].
  change (mkText (Some (JObj (ser_ident d t))) 0) with (written (ser_ident d t)). rewrite E.
  assert (S : same_inst (norm_inst d) d).
  { pose proof (norm_same d Hd) as (S1 & S2 & S3 & S4).
    split; [exact S1|]. split; [exact S2|]. split; [exact S3|].
    pose proof (wf_keys d Hd) as K.
    unfold norm_inst, without_tracing in *. cbn [in_binding] in *. unfold no_tracing in Hn.
    destruct (in_binding d) as [l|]; [|exact I]. destruct Hn as [N1 N2].
    destruct K as (K1 & K2 & _).
    unfold same_lola, norm_lola, same_entries in *.
    cbn [li_id li_shm li_b li_qm li_events li_fields li_methods li_strict li_consumer li_provider li_vm li_forwarded] in *.
    decompose [and] S4. repeat split; try assumption.
    - intros k. rewrite find_untraced_event by exact K1. destruct (find k (li_events l)) as [e|] eqn:F; [|reflexivity].
      apply find_in in F. apply N1 in F. cbn [option_map]. f_equal. destruct e; cbn in *; subst; reflexivity.
    - intros k. rewrite find_untraced_field by exact K2. destruct (find k (li_fields l)) as [[e g s]|] eqn:F; [|reflexivity].
      apply find_in in F. apply N2 in F. cbn [option_map]. f_equal. destruct e; cbn in *; subst; reflexivity. }
  split; [reflexivity|]. split; [|split; [reflexivity|split; [|split; [exact S|apply norm_type_same, Ht]]]].
  - apply ident_eqb_spec; cbn [i_inst]; [apply wf_keys, Hd|apply norm_keys, Hd|].
    destruct S as (S1 & S2 & S3 & S4). split; [congruence|split; [congruence|]].
    apply equal_binding_sym. destruct (in_binding (norm_inst d)), (in_binding d); cbn in *; try tauto.
    unfold same_lola in S4. decompose [and] S4. unfold equal_lola. repeat split; assumption.
  - unfold instance_id. cbn [i_inst norm_inst in_binding]. destruct (in_binding d); reflexivity.
Qed.

(** An example: one service with an event, a field and a method *)
Definition ex_event (tracing : N) : event_depl := mkEv (Some 10) (Some 3) None true tracing.
Definition ex_lola (tracing : N) : lola_inst :=
  mkLi (Some 7) (Some 4096) None None
    [(str "speed", ex_event tracing); (str "brake", mkEv None None (Some 1) false 0)]
    [(str "light", mkFd (ex_event 0) true false)] [(str "calibrate", mkMd (Some 2) true)] false
    [(quality_text QQM, [1000; 1001])] [(quality_text QB, [])] true false.
Definition ex_service : service := mkSv (str "/bmw/Vehicle") 1 3.
Definition ex_inst (tracing : N) (k : name) : inst_depl :=
  mkInst ex_service (BLola (ex_lola tracing)) QQM k.
Definition ex_type : type_depl :=
  TLola (mkLt 4660 [(str "speed", 1); (str "brake", 2)] [(str "light", 3)] [(str "calibrate", 4)]).
Definition port_a := str "app/portA".
Definition port_b := str "app/portB".
Definition empty_conf : conf := make_conf [] [] QQM.
Definition ex_conf (tracing : N) : conf :=
  make_conf [(ex_service, ex_type)]
    [(port_a, ex_inst tracing port_a); (port_b, ex_inst tracing port_b)] QQM.

Ltac nodup := repeat constructor; vm_compute; intuition discriminate.
Lemma all_entries {A} (P : name -> A -> Prop) m : Forall (fun e => P (fst e) (snd e)) m ->
  forall k x, In (k, x) m -> P k x.
Proof. intros H k x Hi. rewrite Forall_forall in H. apply (H (k, x) Hi). Qed.
Example ex_inst_wf : forall tracing k, tracing < 256 -> create_specifier k = Some k ->
  wf_inst (ex_inst tracing k).
Proof.
  intros tr k Ht Hk. split; [split; reflexivity|]. split; [exact Hk|].
  cbn [ex_inst in_binding]. unfold wf_lola_inst, ex_lola.
  cbn [li_id li_shm li_b li_qm li_events li_fields li_methods li_strict li_consumer li_provider].
  split; [reflexivity|]. split; [reflexivity|]. split; [exact I|]. split; [exact I|].
  split; [split; [nodup|]|].
  { apply all_entries. repeat constructor. exact Ht. }
  split; [split; [nodup|]|].
  { apply (all_entries (fun _ f => wf_event (fd_event f))). repeat constructor. }
  split; [split; [nodup|]|].
  { apply (all_entries (fun _ f => wf_method f)). repeat constructor. }
  split; (split; [nodup|]).
  - apply (all_entries (fun k l => (exists q, k = quality_text q) /\ (forall u, In u l -> u < two32))).
    constructor; [|constructor]. split; [exists QQM; reflexivity|].
    intros u [<-|[<-|[]]]; reflexivity.
  - apply (all_entries (fun k l => (exists q, k = quality_text q) /\ (forall u, In u l -> u < two32))).
    constructor; [|constructor]. split; [exists QB; reflexivity|]. intros u [].
Qed.
Example ex_type_wf : wf_type ex_type.
Proof.
  unfold wf_type, ex_type, wf_ids. cbn [lt_id lt_events lt_fields lt_methods].
  split; [reflexivity|].
  repeat split; try nodup; apply (all_entries (fun _ n => n < two16)); repeat constructor.
Qed.
Example ex_unknown : unknown_in (ex_inst 0 port_a) empty_conf /\ no_tracing (ex_inst 0 port_a).
Proof.
  split; [repeat split; vm_compute; congruence|]. split.
  - apply (all_entries (fun _ e => ev_tracing e = 0)). repeat constructor.
  - apply (all_entries (fun _ f => ev_tracing (fd_event f) = 0)). repeat constructor.
Qed.

(** A deployment with tracing slots: the identifier created from the text of the original in another
    process is not equal to the original. *)
Theorem C96_tracing_refuted : exists d t c i' c',
  wf_inst d /\ wf_type t /\ unknown_in d c /\
  create (Some c) (i_text (make_ident d t)) = Created i' c' /\ ident_eqb (make_ident d t) i' = false.
Proof.
  exists (ex_inst 1 port_a), ex_type, empty_conf.
  destruct (create (Some empty_conf) (i_text (make_ident (ex_inst 1 port_a) ex_type))) as [i' c'| | |] eqn:E;
    try (vm_compute in E; discriminate E).
  exists i', c'. split; [apply ex_inst_wf; vm_compute; reflexivity|]. split; [exact ex_type_wf|].
  split; [repeat split; vm_compute; congruence|]. split; [reflexivity|].
  vm_compute in E. injection E as <- <-. vm_compute. reflexivity.
Qed.

(** Creating the identifier from its own text in a process that has the service configured ends the
    process, whatever identifier of a configured instance it is. *)
Theorem C96_same_process_refuted : forall c k i,
  resolve c k = Some i -> wf_inst (i_inst i) -> wf_type (i_type i) ->
  create (Some c) (i_text i) = CreateTerminates.
Proof.
  intros c k i Hr Hd Ht. unfold resolve in Hr.
  destruct (get_inst c k) as [d|] eqn:Ed; [|discriminate].
  destruct (get_type c (in_service d)) as [t|] eqn:Et; [|discriminate]. injection Hr as <-.
  cbn [make_ident i_inst i_type i_text written tx_json create] in *.
  unfold from_json, ser_ident. rewrite check_version_ok by (gets; reflexivity). cbn [bind].
  rewrite (get_obj_ok _ k_inst_depl (ser_inst d)) by (gets; reflexivity). cbn [bind].
  rewrite inst_round by exact Hd. cbn [bind].
  rewrite (get_obj_ok _ k_type_depl (ser_type t)) by (gets; reflexivity). cbn [bind].
  rewrite type_round by exact Ht. cbn [bind].
  change (in_service (norm_inst d)) with (in_service d). unfold add_type, get_type in *.
  destruct (c_types c); [discriminate|]. rewrite Et. reflexivity.
Qed.
Example ex_same_process : exists i, resolve (ex_conf 0) port_a = Some i /\ wf_inst (i_inst i) /\
  wf_type (i_type i) /\ validate (ex_conf 0) = None.
Proof.
  eexists. split; [vm_compute; reflexivity|].
  split; [exact (ex_inst_wf 0 port_a eq_refl eq_refl)|]. split; [exact ex_type_wf|]. vm_compute. reflexivity.
Qed.

(** So does a second creation from the same text in any process. *)
Theorem C96_twice_refuted : forall c t i c',
  create (Some c) t = Created i c' -> create (Some c') t = CreateTerminates.
Proof.
  intros c t i c'. unfold create. destruct (tx_json t) as [[]|]; try discriminate.
  unfold from_json. destruct (check_version o) as [[]| |]; try discriminate; cbn [bind].
  destruct (get_obj o k_inst_depl) as [io| |]; try discriminate; cbn [bind].
  destruct (des_inst io) as [d| |]; try discriminate; cbn [bind].
  destruct (get_obj o k_type_depl) as [to| |]; try discriminate; cbn [bind].
  destruct (des_type to) as [ty| |]; try discriminate; cbn [bind].
  destruct (add_type c (in_service d) ty) as [c1| |] eqn:E1; try discriminate; cbn [bind].
  destruct (add_inst c1 (in_spec d) d) as [c2| |] eqn:E2; try discriminate; cbn [bind].
  intros [= <- <-]. apply add_type_spec in E1. apply add_inst_spec in E2.
  destruct E1 as (_ & T2 & _ & _ & T5). destruct E2 as (_ & _ & S3 & _).
  unfold add_type.
  assert (G : gen_type (in_service d) (c_types c2) = Some ty).
  { rewrite S3. change (get_type c1 (in_service d) = Some ty). rewrite T5, (proj2 (service_eqb_eq _ _) eq_refl). reflexivity. }
  destruct (c_types c2) as [|m g]; [reflexivity|]. cbn [gen_type] in *. 
  rewrite G. reflexivity.
Qed.
Example ex_created : exists i c', create (Some empty_conf) (i_text (make_ident (ex_inst 3 port_a) ex_type)) = Created i c'.
Proof. eexists. eexists. vm_compute. reflexivity. Qed.

Print Assumptions C96_content_partial.
Print Assumptions C96_round_trip_partial.
Print Assumptions C96_tracing_refuted.
Print Assumptions C96_same_process_refuted.
Print Assumptions C96_twice_refuted.
