(** Comparing and hashing identifiers and handles (C97), creating identifiers from arbitrary
    strings (C98). *)
From Coq Require Import String Sorting.Permutation.
From Verif Require Import Base NamesModel DeplModel ConfModel DeplProofs IdentProps.
Open Scope N_scope.

(** An identifier whose maps have distinct keys, as every std::unordered_map has *)
Definition keyed (i : ident) : Prop := keys_ok (in_binding (i_inst i)).

(** * C97: equality *)

(** Equality of identifiers is reflexive, symmetric and transitive. *)
Theorem C97_equality_partial : forall a b c, keyed a -> keyed b -> keyed c ->
  ident_eqb a a = true /\
  (ident_eqb a b = true -> ident_eqb b a = true) /\
  (ident_eqb a b = true -> ident_eqb b c = true -> ident_eqb a c = true).
Proof.
  intros a b c Ha Hb Hc. unfold keyed in *. rewrite !ident_eqb_spec by assumption.
  split; [|split].
  - repeat split. apply equal_binding_refl.
  - intros (H1 & H2 & H3). repeat split; auto. apply equal_binding_sym, H3.
  - intros (H1 & H2 & H3) (G1 & G2 & G3). repeat split; try congruence. eapply equal_binding_trans; eauto.
Qed.

(** Two ports of one application that refer to the same service instance: their identifiers compare
    equal but have different texts, so the hash that an unordered container computes differs. *)
Theorem C97_hash_refuted : exists c a b,
  validate c = None /\ resolve c port_a = Some a /\ resolve c port_b = Some b /\
  ident_eqb a b = true /\ hash_text a <> hash_text b.
Proof.
  exists (ex_conf 0), (make_ident (ex_inst 0 port_a) ex_type), (make_ident (ex_inst 0 port_b) ex_type).
  split; [vm_compute; reflexivity|]. split; [vm_compute; reflexivity|]. split; [vm_compute; reflexivity|].
  split; [vm_compute; reflexivity|].
  intros H. apply (f_equal (fun t => match tx_json t with
     | Some (JObj o) => match find k_inst_depl o with
                        | Some (JObj p) => find k_spec p | _ => None end
     | _ => None end)) in H. vm_compute in H. discriminate H.
Qed.

Lemma same_map_json {A} (ser : A -> json) a b : NoDup (map fst a) -> NoDup (map fst b) ->
  same_entries a b -> map_to_json ser a = map_to_json ser b.
Proof. intros Ha Hb H. rewrite !map_to_json_sorted, (sorted_ext a b) by assumption. reflexivity. Qed.

(** Equal identifiers of the same port, with the same inter-VM flags and the same service type, have
    the same text and so the same hash, if neither was created from a string. *)
Theorem C97_hash_partial : forall d e t u,
  wf_inst d -> wf_inst e -> wf_type t -> wf_type u ->
  ident_eqb (make_ident d t) (make_ident e u) = true ->
  in_spec d = in_spec e -> same_type t u ->
  match in_binding d, in_binding e with
  | BLola x, BLola y => li_vm x = li_vm y /\ li_forwarded x = li_forwarded y
  | _, _ => True
  end ->
  hash_text (make_ident d t) = hash_text (make_ident e u).
Proof.
  intros d e t u Hd He Ht Hu E S T V.
  apply ident_eqb_spec in E; cbn [i_inst make_ident] in *; try (apply wf_keys; assumption).
  destruct E as (E1 & E2 & E3). unfold hash_text, make_ident. cbn [i_text]. unfold ser_ident.
  assert (D : ser_inst d = ser_inst e).
  { unfold ser_inst. rewrite E1, E2, S. do 4 f_equal.
    apply wf_keys in Hd. apply wf_keys in He.
    destruct (in_binding d) as [x|], (in_binding e) as [y|]; cbn in E3; try tauto.
    destruct V as [V1 V2]. destruct Hd as (D1 & D2 & D3 & D4 & D5). destruct He as (F1 & F2 & F3 & F4 & F5).
    unfold equal_lola in E3. destruct E3 as (G1 & G2 & G3 & G4 & G5 & G6 & G7 & G8 & G9 & G10).
    f_equal. f_equal. unfold ser_lola_inst. rewrite G1, G2, G3, G4, G8, V1, V2.
    rewrite (same_map_json _ (li_events x) (li_events y)) by assumption.
    rewrite (same_map_json _ (li_fields x) (li_fields y)) by assumption.
    rewrite (same_map_json _ (li_methods x) (li_methods y)) by assumption.
    rewrite (same_map_json _ (li_consumer x) (li_consumer y)) by assumption.
    rewrite (same_map_json _ (li_provider x) (li_provider y)) by assumption. reflexivity. }
  assert (U : ser_type t = ser_type u).
  { destruct t as [x|], u as [y|]; cbn in T; try tauto.
    destruct Ht as (_ & [A1 _] & [A2 _] & [A3 _]). destruct Hu as (_ & [B1 _] & [B2 _] & [B3 _]).
    destruct T as (T1 & T2 & T3 & T4). unfold ser_type. do 2 f_equal. unfold ser_lola_type. rewrite T1.
    rewrite (same_map_json _ (lt_events x) (lt_events y)) by assumption.
    rewrite (same_map_json _ (lt_fields x) (lt_fields y)) by assumption.
    rewrite (same_map_json _ (lt_methods x) (lt_methods y)) by assumption. reflexivity. }
  rewrite D, U. reflexivity.
Qed.
(** The same instance with its map entries in another order *)
Definition ex_inst_swapped : inst_depl :=
  mkInst ex_service
    (BLola (mkLi (Some 7) (Some 4096) None None
      [(str "brake", mkEv None None (Some 1) false 0); (str "speed", ex_event 0)]
      [(str "light", mkFd (ex_event 0) true false)] [(str "calibrate", mkMd (Some 2) true)] false
      [(quality_text QQM, [1000; 1001])] [(quality_text QB, [])] true false)) QQM port_a.
Example ex_hash : ident_eqb (make_ident (ex_inst 0 port_a) ex_type) (make_ident ex_inst_swapped ex_type) = true
  /\ in_spec (ex_inst 0 port_a) = in_spec ex_inst_swapped.
Proof. split; vm_compute; reflexivity. Qed.

(** * C97: order *)

Lemma service_ltb_irr a : service_ltb a a = false.
Proof. unfold service_ltb, version_ltb. rewrite name_eqb_refl, N.eqb_refl. apply N.ltb_irrefl. Qed.
Lemma name_ltb_iff a b : name_ltb a b = true <-> name_cmp a b = Lt.
Proof. unfold name_ltb. destruct (name_cmp a b); split; congruence. Qed.
Lemma service_ltb_spec a b : service_ltb a b = true <->
  name_cmp (sv_name a) (sv_name b) = Lt \/
  (sv_name a = sv_name b /\ (sv_major a < sv_major b \/ (sv_major a = sv_major b /\ sv_minor a < sv_minor b))).
Proof.
  unfold service_ltb, version_ltb. destruct (name_eqb (sv_name a) (sv_name b)) eqn:E.
  - apply name_eqb_eq in E. rewrite E, name_cmp_refl.
    destruct (N.eqb_spec (sv_major a) (sv_major b)); rewrite N.ltb_lt; split; intros H.
    + right; split; auto.
    + destruct H as [H|[_ [H|[_ H]]]]; [discriminate|lia|exact H].
    + right; split; auto.
    + destruct H as [H|[_ [H|[H _]]]]; [discriminate|exact H|lia].
  - apply name_eqb_neq in E. rewrite name_ltb_iff. split; [auto|]. intros [H|[H _]]; [exact H|contradiction].
Qed.
Lemma service_ltb_trans a b c : service_ltb a b = true -> service_ltb b c = true -> service_ltb a c = true.
Proof.
  rewrite !service_ltb_spec. intros [H|[H1 H2]] [G|[G1 G2]].
  - left. eapply name_cmp_trans; eauto.
  - left. rewrite <- G1. exact H.
  - left. rewrite H1. exact G.
  - right. split; [congruence|]. lia.
Qed.
Lemma service_total a b : service_ltb a b = false -> service_ltb b a = false -> a = b.
Proof.
  intros H G. apply not_true_iff_false in H. apply not_true_iff_false in G.
  rewrite service_ltb_spec in H, G.
  assert (E : sv_name a = sv_name b).
  { destruct (name_cmp (sv_name a) (sv_name b)) eqn:E; [apply name_cmp_eq, E|tauto|].
    exfalso. apply G. left. rewrite name_cmp_anti, E. reflexivity. }
  assert (F : sv_major a = sv_major b).
  { destruct (N.lt_trichotomy (sv_major a) (sv_major b)) as [L|[L|L]]; [|exact L|].
    - exfalso; apply H; auto.
    - exfalso; apply G; auto. }
  assert (K : sv_minor a = sv_minor b).
  { destruct (N.lt_trichotomy (sv_minor a) (sv_minor b)) as [L|[L|L]]; [|exact L|].
    - exfalso; apply H; auto 6.
    - exfalso; apply G; right; auto 6. }
  destruct a, b; cbn in *; congruence.
Qed.

Lemma opt_ltb_trans a b c : opt_ltb a b = true -> opt_ltb b c = true -> opt_ltb a c = true.
Proof. destruct a, b, c; cbn [opt_ltb]; rewrite ?N.ltb_lt; try congruence. lia. Qed.
Lemma opt_ltb_irr a : opt_ltb a a = false.
Proof. destruct a; cbn; [apply N.ltb_irrefl|reflexivity]. Qed.
Lemma binding_ltb_trans a b c : binding_ltb a b = true -> binding_ltb b c = true -> binding_ltb a c = true.
Proof.
  destruct a, b, c; cbn [binding_ltb]; try congruence; unfold lola_inst_ltb; apply opt_ltb_trans.
Qed.
Lemma binding_ltb_irr a : binding_ltb a a = false.
Proof. destruct a; cbn; [apply opt_ltb_irr|reflexivity]. Qed.
Lemma binding_ltb_equal a b c : equal_binding a b -> binding_ltb a c = binding_ltb b c.
Proof.
  destruct a, b, c; cbn; try tauto; unfold equal_lola, lola_inst_ltb. intros [-> _]. reflexivity.
Qed.
Lemma binding_ltb_equal_r a b c : equal_binding a b -> binding_ltb c a = binding_ltb c b.
Proof.
  destruct a, b, c; cbn; try tauto; unfold equal_lola, lola_inst_ltb. intros [-> _]. reflexivity.
Qed.

Section order.
  Variables a b c : inst_depl.
  Hypothesis Ka : keys_ok (in_binding a).
  Hypothesis Kb : keys_ok (in_binding b).
  Hypothesis Kc : keys_ok (in_binding c).
  Lemma inst_ltb_irr : inst_ltb a a = false.
  Proof.
    unfold inst_ltb. rewrite (proj2 (binding_eqb_spec _ _ Ka Ka)) by apply equal_binding_refl.
    apply N.ltb_irrefl.
  Qed.
  Lemma inst_ltb_trans : inst_ltb a b = true -> inst_ltb b c = true -> inst_ltb a c = true.
  Proof.
    unfold inst_ltb.
    destruct (binding_eqb (in_binding a) (in_binding b)) eqn:E1;
    destruct (binding_eqb (in_binding b) (in_binding c)) eqn:E2;
    destruct (binding_eqb (in_binding a) (in_binding c)) eqn:E3; rewrite ?N.ltb_lt; intros H G.
    - lia.
    - apply binding_eqb_spec in E1; auto. apply binding_eqb_spec in E2; auto.
      pose proof (equal_binding_trans _ _ _ E1 E2) as E. apply binding_eqb_spec in E; auto. congruence.
    - apply binding_eqb_spec in E1; auto. apply binding_eqb_spec in E3; auto.
      pose proof (equal_binding_trans _ _ _ (equal_binding_sym _ _ E1) E3) as E.
      apply binding_eqb_spec in E; auto. congruence.
    - apply binding_eqb_spec in E1; auto. rewrite (binding_ltb_equal _ _ _ E1). exact G.
    - apply binding_eqb_spec in E2; auto. apply binding_eqb_spec in E3; auto.
      pose proof (equal_binding_trans _ _ _ E3 (equal_binding_sym _ _ E2)) as E.
      apply binding_eqb_spec in E; auto. congruence.
    - apply binding_eqb_spec in E2; auto. rewrite <- (binding_ltb_equal_r _ _ _ E2). exact H.
    - apply binding_eqb_spec in E3; auto.
      pose proof (binding_ltb_trans _ _ _ H G) as T. rewrite (binding_ltb_equal _ _ _ E3), binding_ltb_irr in T.
      discriminate.
    - eapply binding_ltb_trans; eauto.
  Qed.
End order.

Lemma ident_ltb_spec a b : ident_ltb a b = true <->
  service_ltb (in_service (i_inst a)) (in_service (i_inst b)) = true \/
  (in_service (i_inst a) = in_service (i_inst b) /\ inst_ltb (i_inst a) (i_inst b) = true).
Proof.
  unfold ident_ltb. rewrite orb_true_iff, andb_true_iff, negb_true_iff. split.
  - intros [H|[H G]]; [auto|].
    destruct (service_ltb (in_service (i_inst a)) (in_service (i_inst b))) eqn:E; [auto|].
    right. split; [apply service_total; assumption|exact G].
  - intros [H|[H G]]; [auto|]. right. rewrite H. split; [apply service_ltb_irr|exact G].
Qed.

(** The less-than of identifiers is a strict order: irreflexive, transitive and asymmetric. *)
Theorem C97_order_partial : forall a b c, keyed a -> keyed b -> keyed c ->
  ident_ltb a a = false /\
  (ident_ltb a b = true -> ident_ltb b c = true -> ident_ltb a c = true) /\
  (ident_ltb a b = true -> ident_ltb b a = false) /\
  (ident_eqb a b = true -> ident_ltb a b = false).
Proof.
  assert (I : forall a, keyed a -> ident_ltb a a = false).
  { intros a Ha. apply not_true_iff_false. rewrite ident_ltb_spec. intros [H|[_ H]].
    - rewrite service_ltb_irr in H; discriminate.
    - rewrite inst_ltb_irr in H by exact Ha; discriminate. }
  assert (T : forall a b c, keyed a -> keyed b -> keyed c ->
    ident_ltb a b = true -> ident_ltb b c = true -> ident_ltb a c = true).
  { intros a b c Ha Hb Hc. rewrite !ident_ltb_spec. intros [H|[H1 H2]] [G|[G1 G2]].
    - left. eapply service_ltb_trans; eauto.
    - left. rewrite <- G1. exact H.
    - left. rewrite H1. exact G.
    - right. split; [congruence|]. eapply inst_ltb_trans; [| | |exact H2|exact G2]; assumption. }
  intros a b c Ha Hb Hc. split; [auto|]. split; [eauto|]. split.
  - intros H. apply not_true_iff_false. intros G. pose proof (T a b a Ha Hb Ha H G) as E.
    rewrite I in E by exact Ha. discriminate.
  - intros E. apply ident_eqb_spec in E; try assumption. destruct E as (E1 & E2 & E3).
    apply not_true_iff_false. rewrite ident_ltb_spec. intros [H|[_ H]].
    + rewrite E1, service_ltb_irr in H; discriminate.
    + unfold inst_ltb in H. rewrite (proj2 (binding_eqb_spec _ _ Ha Hb) E3), E2, N.ltb_irrefl in H. discriminate.
Qed.

(** Three ports of a valid configuration of an ASIL-B process: the same service instance at level QM and
    at level B, and once more with another memory size *)
Definition port_c := str "app/portC".
Definition ex_third : inst_depl :=
  mkInst ex_service (BLola (mkLi (Some 7) (Some 8192) None None [] [] [] false [] [] false false)) QQM port_c.
Definition ex_conf3 : conf :=
  make_conf [(ex_service, ex_type)]
    [(port_a, ex_inst 0 port_a);
     (port_b, mkInst ex_service (BLola (ex_lola 0)) QB port_b); (port_c, ex_third)] QB.

(** The order is no strict weak order, which std::set, std::map and std::sort require: an identifier
    can be equivalent to two identifiers of which one is less than the other. *)
Theorem C97_order_refuted : exists c a b x,
  validate c = None /\ resolve c port_a = Some a /\ resolve c port_b = Some b /\ resolve c port_c = Some x /\
  ident_ltb a b = true /\
  ident_ltb a x = false /\ ident_ltb x a = false /\ ident_ltb b x = false /\ ident_ltb x b = false.
Proof.
  exists ex_conf3. do 3 eexists. split; [vm_compute; reflexivity|].
  split; [reflexivity|]. split; [reflexivity|]. split; [reflexivity|]. vm_compute. auto 6.
Qed.
(** Identifiers with different settings that the order does not separate: a std::set keeps only one. *)
Theorem C97_equivalent_refuted : exists c a x,
  validate c = None /\ resolve c port_a = Some a /\ resolve c port_c = Some x /\
  ident_ltb a x = false /\ ident_ltb x a = false /\ ident_eqb a x = false.
Proof.
  exists ex_conf3. do 2 eexists. split; [vm_compute; reflexivity|].
  split; [reflexivity|]. split; [reflexivity|]. vm_compute. auto.
Qed.

(** The settings of an instance are determined by its service and its instance id *)
Definition determined (a b : ident) : Prop :=
  in_service (i_inst a) = in_service (i_inst b) -> instance_id a = instance_id b ->
  equal_binding (in_binding (i_inst a)) (in_binding (i_inst b)).
Lemma opt_ltb_total a b : opt_ltb a b = false -> opt_ltb b a = false -> a = b.
Proof. destruct a, b; cbn [opt_ltb]; rewrite ?N.ltb_ge; try congruence. intros; f_equal; lia. Qed.

(** Among identifiers whose settings are determined by service and instance id, not being less in
    either direction is the same as being equal; so the order is a strict weak order there. *)
Theorem C97_equivalent_partial : forall a b, keyed a -> keyed b -> determined a b ->
  (ident_ltb a b = false /\ ident_ltb b a = false) <-> ident_eqb a b = true.
Proof.
  intros a b Ha Hb D. split.
  - intros [H G]. apply not_true_iff_false in H. apply not_true_iff_false in G.
    rewrite ident_ltb_spec in H, G.
    assert (S : in_service (i_inst a) = in_service (i_inst b)).
    { apply service_total; apply not_true_iff_false; intros X; [apply H|apply G]; left; exact X. }
    assert (NH : inst_ltb (i_inst a) (i_inst b) = false) by (apply not_true_iff_false; auto).
    assert (NG : inst_ltb (i_inst b) (i_inst a) = false) by (apply not_true_iff_false; auto).
    unfold inst_ltb in NH, NG.
    assert (E : equal_binding (in_binding (i_inst a)) (in_binding (i_inst b))).
    { destruct (binding_eqb (in_binding (i_inst a)) (in_binding (i_inst b))) eqn:E1;
        [apply binding_eqb_spec in E1; assumption|].
      destruct (binding_eqb (in_binding (i_inst b)) (in_binding (i_inst a))) eqn:E2;
        [apply binding_eqb_spec in E2; try assumption; apply equal_binding_sym; assumption|].
      assert (Hi : instance_id a = instance_id b).
      { unfold instance_id. destruct (in_binding (i_inst a)) as [x|], (in_binding (i_inst b)) as [y|];
          cbn [binding_ltb] in NH, NG; try discriminate; try reflexivity.
        apply opt_ltb_total; assumption. }
      apply D; assumption. }
    apply ident_eqb_spec; try assumption. split; [exact S|]. split; [|exact E].
    rewrite (proj2 (binding_eqb_spec _ _ Ha Hb) E) in NH.
    rewrite (proj2 (binding_eqb_spec _ _ Hb Ha) (equal_binding_sym _ _ E)) in NG.
    rewrite N.ltb_ge in NH, NG. destruct (in_asil (i_inst a)), (in_asil (i_inst b)); cbn in *; try reflexivity; lia.
  - intros E. destruct (C97_order_partial a b a Ha Hb Ha) as (_ & _ & _ & P1).
    destruct (C97_order_partial b a b Hb Ha Hb) as (_ & _ & _ & P2).
    split; [auto|]. apply P2. destruct (C97_equality_partial a b a Ha Hb Ha) as (_ & Q & _). auto.
Qed.
Example ex_determined : determined (make_ident (ex_inst 0 port_a) ex_type) (make_ident (ex_inst 0 port_b) ex_type).
Proof. intros _ _. apply equal_binding_refl. Qed.

(** Handles found through one configuration: equal handles have the same hash. *)
Theorem C97_handle_hash_partial : forall c k1 k2 a b f1 f2 h1 h2,
  (forall k i, resolve c k = Some i -> keyed i) ->
  resolve c k1 = Some a -> resolve c k2 = Some b ->
  make_handle a f1 = Done h1 -> make_handle b f2 = Done h2 ->
  handle_eqb h1 h2 = true -> handle_hash_text h1 = handle_hash_text h2.
Proof.
  intros c k1 k2 a b f1 f2 h1 h2 K R1 R2 M1 M2 E.
  pose proof (K _ _ R1) as Ka. pose proof (K _ _ R2) as Kb.
  assert (I1 : h_ident h1 = a).
  { unfold make_handle in M1. destruct f1; [injection M1 as <-; reflexivity|].
    destruct (instance_id a); [injection M1 as <-; reflexivity|discriminate]. }
  assert (I2 : h_ident h2 = b).
  { unfold make_handle in M2. destruct f2; [injection M2 as <-; reflexivity|].
    destruct (instance_id b); [injection M2 as <-; reflexivity|discriminate]. }
  unfold handle_eqb in E. apply andb_true_iff in E. destruct E as [E1 E2]. apply N.eqb_eq in E2.
  rewrite I1, I2 in E1. apply ident_eqb_spec in E1; try assumption. destruct E1 as (S & _).
  unfold handle_hash_text. rewrite E2, I1, I2.
  unfold resolve in R1, R2. destruct (get_inst c k1) as [d|]; [|discriminate]. destruct (get_inst c k2) as [e|]; [|discriminate].
  destruct (get_type c (in_service d)) as [t|] eqn:T1; [|discriminate].
  destruct (get_type c (in_service e)) as [u|] eqn:T2; [|discriminate].
  injection R1 as <-. injection R2 as <-. cbn [make_ident i_inst i_type] in *. congruence.
Qed.
Lemma digits_sum q3 q2 q1 r0 n n1 n2 : n = 16 * n1 + r0 -> n1 = 16 * n2 + q1 -> n2 = 16 * q3 + q2 ->
  n = 4096 * q3 + 256 * q2 + 16 * q1 + r0.
Proof. lia. Qed.
Lemma digits n : n < two16 ->
  n = 4096 * (n / 4096 mod 16) + 256 * (n / 256 mod 16) + 16 * (n / 16 mod 16) + n mod 16.
Proof.
  intros Hl.
  assert (E1 : n / 256 = n / 16 / 16) by (rewrite N.div_div by discriminate; reflexivity).
  assert (E2 : n / 4096 = n / 16 / 16 / 16) by (rewrite !N.div_div by discriminate; reflexivity).
  assert (L : n / 4096 < 16) by (apply N.div_lt_upper_bound; [discriminate|exact Hl]).
  rewrite (N.mod_small _ _ L), E1, E2.
  apply (digits_sum _ _ _ _ n (n / 16) (n / 16 / 16)); apply N.div_mod; discriminate.
Qed.
(** Handles of different instances of one service differ in their hash texts. *)
Theorem C97_handle_distinct_partial : forall h1 h2,
  h_id h1 < two16 -> h_id h2 < two16 -> h_id h1 <> h_id h2 -> handle_hash_text h1 <> handle_hash_text h2.
Proof.
  intros h1 h2 H1 H2 Hn E. apply Hn. unfold handle_hash_text, hex4 in E. cbn [app] in E.
  injection E as E1 E2 E3 E4 _.
  rewrite (digits _ H1), (digits _ H2), E1, E2, E3, E4. reflexivity.
Qed.
(** Handles of identifiers whose settings are determined by service and instance id are strictly
    ordered, and not being less in either direction is the same as being equal; so they can be keys
    of an ordered container. *)
Lemma handle_ltb_spec a b : handle_ltb a b = true <->
  ident_ltb (h_ident a) (h_ident b) = true \/ ident_ltb (h_ident b) (h_ident a) = false /\ h_id a < h_id b.
Proof.
  unfold handle_ltb. rewrite orb_true_iff, andb_true_iff, negb_true_iff, N.ltb_lt. reflexivity.
Qed.
Lemma dec b : b = true \/ b = false. Proof. destruct b; auto. Qed.
Theorem C97_handle_order_partial : forall a b c,
  keyed (h_ident a) -> keyed (h_ident b) -> keyed (h_ident c) ->
  determined (h_ident a) (h_ident b) -> determined (h_ident b) (h_ident c) -> determined (h_ident a) (h_ident c) ->
  handle_ltb a a = false /\
  (handle_ltb a b = true -> handle_ltb b c = true -> handle_ltb a c = true) /\
  (handle_ltb a b = true -> handle_ltb b a = false) /\
  (handle_ltb a b = false /\ handle_ltb b a = false <-> handle_eqb a b = true).
Proof.
  intros [a m] [b n] [c o]. unfold handle_eqb. rewrite <- !not_true_iff_false, !handle_ltb_spec. cbn [h_ident h_id].
  intros Ka Kb Kc Dab Dbc Dac.
  destruct (C97_order_partial a b c Ka Kb Kc) as (Ia & Tabc & Aab & Qab).
  destruct (C97_order_partial b c a Kb Kc Ka) as (_ & Tbca & Abc & Qbc).
  destruct (C97_order_partial c a b Kc Ka Kb) as (_ & Tcab & Aca & Qca).
  pose proof (C97_equivalent_partial a b Ka Kb Dab) as Eab. pose proof (C97_equivalent_partial b c Kb Kc Dbc) as Ebc.
  pose proof (C97_equivalent_partial a c Ka Kc Dac) as Eac.
  destruct (C97_equality_partial a b c Ka Kb Kc) as (_ & Sab & Tab).
  destruct (C97_equality_partial b c a Kb Kc Ka) as (_ & Sbc & Tbc).
  destruct (C97_equality_partial c a b Kc Ka Kb) as (_ & Sca & Tca).
  destruct (C97_equality_partial a c b Ka Kc Kb) as (_ & Sac & Tac).
  destruct (C97_equality_partial b a c Kb Ka Kc) as (_ & Sba & Tba).
  split; [|split; [|split]].
  - intros [H|[_ H]]; [congruence|exact (N.lt_irrefl _ H)].
  - (* not (b < a) is a < b or equal *)
    assert (Lab : ident_ltb b a = false -> ident_ltb a b = true \/ ident_eqb a b = true).
    { intros H. destruct (dec (ident_ltb a b)) as [X|X]; [auto|]. right. apply Eab. auto. }
    assert (Lbc : ident_ltb c b = false -> ident_ltb b c = true \/ ident_eqb b c = true).
    { intros H. destruct (dec (ident_ltb b c)) as [X|X]; [auto|]. right. apply Ebc. auto. }
    assert (Cab : ident_eqb a b = true -> ident_ltb b c = true -> ident_ltb a c = true).
    { intros Q H. destruct (dec (ident_ltb a c)) as [X|X]; [exact X|]. exfalso.
      destruct (dec (ident_ltb c a)) as [Y|Y].
      - pose proof (Tbca H Y) as Z. apply Eab in Q. destruct Q as [_ Q]. congruence.
      - pose proof (proj1 Eac (conj X Y)) as R. pose proof (Qbc (Tba (Sab Q) R)). congruence. }
    assert (Cbc : ident_ltb a b = true -> ident_eqb b c = true -> ident_ltb a c = true).
    { intros H Q. destruct (dec (ident_ltb a c)) as [X|X]; [exact X|]. exfalso.
      destruct (dec (ident_ltb c a)) as [Y|Y].
      - pose proof (Tcab Y H) as Z. apply Ebc in Q. destruct Q as [_ Q]. congruence.
      - pose proof (proj1 Eac (conj X Y)) as R. pose proof (Qab (Tac R (Sbc Q))). congruence. }
    intros [H|[H L]] [G|[G M]].
    + left. exact (Tabc H G).
    + left. destruct (Lbc G) as [Z|Z]; [exact (Tabc H Z)|exact (Cbc H Z)].
    + left. destruct (Lab H) as [Z|Z]; [exact (Tabc Z G)|exact (Cab Z G)].
    + destruct (Lab H) as [Y|Y], (Lbc G) as [Z|Z].
      * left. exact (Tabc Y Z).
      * left. exact (Cbc Y Z).
      * left. exact (Cab Y Z).
      * right. split; [|exact (N.lt_trans _ _ _ L M)]. pose proof (Tab Y Z) as W. apply Eac in W. apply W.
  - intros [H|[H L]] [G|[G M]].
    + rewrite (Aab H) in G. discriminate.
    + rewrite H in G. discriminate.
    + rewrite H in G. discriminate.
    + exact (N.lt_asymm _ _ L M).
  - rewrite andb_true_iff, N.eqb_eq. split.
    + intros [H G]. destruct (dec (ident_ltb a b)) as [X|X]; [exfalso; apply H; left; exact X|].
      destruct (dec (ident_ltb b a)) as [Y|Y]; [exfalso; apply G; left; exact Y|].
      split; [apply Eab; auto|]. destruct (N.lt_trichotomy m n) as [L|[L|L]]; [|exact L|].
      * exfalso. apply H. right. auto.
      * exfalso. apply G. right. auto.
    + intros [E ->]. apply Eab in E. destruct E as [E1 E2]. rewrite E1, E2.
      split; (intros [H|[_ H]]; [discriminate|exact (N.lt_irrefl _ H)]).
Qed.
Example ex_handles : exists a b h1 h2, resolve (ex_conf 0) port_a = Some a /\ resolve (ex_conf 0) port_b = Some b /\
  make_handle a None = Done h1 /\ make_handle b (Some 7) = Done h2 /\ handle_eqb h1 h2 = true.
Proof.
  exists (make_ident (ex_inst 0 port_a) ex_type), (make_ident (ex_inst 0 port_b) ex_type).
  do 2 eexists. repeat split; vm_compute; reflexivity.
Qed.

(** * C98: creating identifiers from arbitrary strings *)

(** Creation is not exception-less for every string: a JSON object with another version ends the
    process, and so does an instance that lacks its settings. *)
Theorem C98_terminates_refuted : exists c t1 t2,
  validate c = None /\ create (Some c) t1 = CreateTerminates /\ create (Some c) t2 = CreateTerminates.
Proof.
  exists (ex_conf 0), (written [(k_version, JNum 2)]), (written [(k_version, JNum 1); (k_inst_depl, JObj [])]).
  repeat split; vm_compute; reflexivity.
Qed.
(** The empty JSON object has no version: in a release build the code reads past the end of a map. *)
Theorem C98_undefined_refuted : exists c t, validate c = None /\ create (Some c) t = CreateUndefined.
Proof. exists (ex_conf 0), (written []). split; vm_compute; reflexivity. Qed.

(** Every result of a creation: before the runtime exists an error; for a text that is no JSON object
    an error; otherwise, if it returns, an identifier with the given text, whose deployments are the
    ones the configuration now has under its service and port, which were not configured before,
    while every other entry is unchanged. *)
Theorem C98_result_partial : forall oc t,
  match create oc t with
  | CreateError InvalidConfiguration => oc = None
  | CreateError InvalidString => oc <> None /\ (forall o, tx_json t <> Some (JObj o))
  | Created i c' =>
      exists c, oc = Some c /\ (exists o, tx_json t = Some (JObj o)) /\ i_text i = t /\
        unknown_in (i_inst i) c /\ only_adds (i_inst i) c c' /\
        get_inst c' (in_spec (i_inst i)) = Some (i_inst i) /\
        get_type c' (in_service (i_inst i)) = Some (i_type i) /\
        create_specifier (in_spec (i_inst i)) = Some (in_spec (i_inst i))
  | CreateTerminates | CreateUndefined => exists o, oc <> None /\ tx_json t = Some (JObj o)
  end.
Proof.
  intros oc t. unfold create. destruct oc as [c|]; [|reflexivity].
  destruct (tx_json t) as [[n|b|s|l|o|]|] eqn:Et; try (split; [discriminate|intros; congruence]).
  destruct (from_json c o t) as [[i c']| |] eqn:E; try (exists o; split; [discriminate|reflexivity]).
  exists c. split; [reflexivity|]. split; [eauto|].
  unfold from_json in E. destruct (check_version o) as [[]| |]; try discriminate; cbn [bind] in E.
  destruct (get_obj o k_inst_depl) as [io| |]; try discriminate; cbn [bind] in E.
  destruct (des_inst io) as [d| |] eqn:Ed; try discriminate; cbn [bind] in E.
  destruct (get_obj o k_type_depl) as [to| |]; try discriminate; cbn [bind] in E.
  destruct (des_type to) as [ty| |]; try discriminate; cbn [bind] in E.
  destruct (add_type c (in_service d) ty) as [c1| |] eqn:E1; try discriminate; cbn [bind] in E.
  destruct (add_inst c1 (in_spec d) d) as [c2| |] eqn:E2; try discriminate; cbn [bind] in E.
  injection E as <- <-. cbn [i_text i_inst i_type].
  apply add_type_spec in E1. apply add_inst_spec in E2.
  destruct E1 as (T1 & T2 & T3 & T4 & T5). destruct E2 as (S1 & S2 & S3 & S4 & S5).
  assert (G : forall s, get_type c2 s = get_type c1 s) by (intros s; unfold get_type; rewrite S3; reflexivity).
  assert (G' : forall k, get_inst c1 k = get_inst c k) by (intros k; unfold get_inst; rewrite T3; reflexivity).
  split; [reflexivity|]. split; [repeat split; [exact T2|rewrite <- T3; exact S2|exact T1|rewrite <- G'; exact S1]|].
  split; [split; [|split]|].
  - intros s Hs. rewrite G, T5, Hs. reflexivity.
  - intros k Hk. rewrite S5. apply name_eqb_neq in Hk. rewrite Hk. apply G'.
  - congruence.
  - split; [rewrite S5, name_eqb_refl; reflexivity|].
    split; [rewrite G, T5, (proj2 (service_eqb_eq _ _) eq_refl); reflexivity|].
    unfold des_inst in Ed.
    repeat match type of Ed with
    | bind ?x _ = Done _ => let E := fresh "B" in destruct x as [?| |] eqn:E; try discriminate; cbn [bind] in Ed
    end.
    injection Ed as <-. cbn [in_spec].
    match goal with H : match create_specifier ?n with _ => _ end = Done ?m |- _ =>
      destruct (create_specifier n) as [z|] eqn:Z; [|discriminate]; injection H as <-;
      unfold create_specifier in *; destruct (is_short_name_valid n) eqn:V; [|discriminate];
      injection Z as <-; rewrite V; reflexivity end.
Qed.
Example ex_c98 : exists i c', create (Some empty_conf) (i_text (make_ident (ex_inst 3 port_a) ex_type)) = Created i c'.
Proof. exact ex_created. Qed.

Print Assumptions C97_equality_partial.
Print Assumptions C97_hash_refuted.
Print Assumptions C97_hash_partial.
Print Assumptions C97_order_partial.
Print Assumptions C97_order_refuted.
Print Assumptions C97_equivalent_refuted.
Print Assumptions C97_equivalent_partial.
Print Assumptions C97_handle_order_partial.
Print Assumptions C97_handle_hash_partial.
Print Assumptions C97_handle_distinct_partial.
Print Assumptions C98_terminates_refuted.
Print Assumptions C98_undefined_refuted.
Print Assumptions C98_result_partial.
