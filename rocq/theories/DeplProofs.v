(** Lemmas about names, maps and the JSON form of the deployments. *)
From Coq Require Import String Sorting.Permutation.
From Verif Require Import Base NamesModel DeplModel.
Open Scope N_scope.

(** * Names *)
Lemma name_cmp_eq a b : name_cmp a b = Eq <-> a = b.
Proof.
  revert b; induction a as [|x a IH]; intros [|y b]; cbn [name_cmp]; try (split; congruence).
  destruct (N.compare_spec x y) as [->|H|H].
  - rewrite IH. split; congruence.
  - split; [discriminate|intros [= -> _]; lia].
  - split; [discriminate|intros [= -> _]; lia].
Qed.
Lemma name_cmp_refl a : name_cmp a a = Eq.
Proof. apply name_cmp_eq; reflexivity. Qed.
Lemma name_cmp_anti a b : name_cmp b a = CompOpp (name_cmp a b).
Proof.
  revert b; induction a as [|x a IH]; intros [|y b]; cbn [name_cmp CompOpp]; try reflexivity.
  rewrite (N.compare_antisym x y). destruct (x ?= y) eqn:E; cbn [CompOpp]; auto.
Qed.
Lemma name_cmp_trans a b c : name_cmp a b = Lt -> name_cmp b c = Lt -> name_cmp a c = Lt.
Proof.
  revert b c; induction a as [|x a IH]; intros [|y b] [|z c]; cbn [name_cmp]; try congruence.
  destruct (N.compare_spec x y); try congruence;
  destruct (N.compare_spec y z); try congruence; intros; subst.
  - rewrite N.compare_refl. eauto.
  - rewrite (proj2 (N.compare_lt_iff y z)) by assumption. reflexivity.
  - rewrite (proj2 (N.compare_lt_iff x z)) by assumption. reflexivity.
  - rewrite (proj2 (N.compare_lt_iff x z)) by lia. reflexivity.
Qed.
Lemma name_eqb_eq a b : name_eqb a b = true <-> a = b.
Proof. unfold name_eqb. rewrite <- name_cmp_eq. destruct (name_cmp a b); split; congruence. Qed.
Lemma name_eqb_refl a : name_eqb a a = true.
Proof. apply name_eqb_eq; reflexivity. Qed.
Lemma name_eqb_neq a b : name_eqb a b = false <-> a <> b.
Proof. rewrite <- name_eqb_eq. destruct (name_eqb a b); split; congruence. Qed.
Lemma name_eqb_sym a b : name_eqb a b = name_eqb b a.
Proof.
  destruct (name_eqb b a) eqn:E; [apply name_eqb_eq in E|apply name_eqb_neq in E].
  - apply name_eqb_eq; auto.
  - apply name_eqb_neq; auto.
Qed.
Lemma name_dec (a b : name) : {a = b} + {a <> b}.
Proof. destruct (name_eqb a b) eqn:E; [left; apply name_eqb_eq|right; apply name_eqb_neq]; exact E. Qed.

(** * Maps *)
Lemma find_in {A} k v (m : list (name * A)) : find k m = Some v -> In (k, v) m.
Proof.
  induction m as [|[k' v'] m IH]; cbn [find]; [discriminate|].
  destruct (name_eqb k k') eqn:E; intros H.
  - apply name_eqb_eq in E. injection H as ->. subst. left; reflexivity.
  - right; auto.
Qed.
Lemma find_none {A} k (m : list (name * A)) : find k m = None <-> ~ In k (map fst m).
Proof.
  induction m as [|[k' v'] m IH]; cbn [find map In fst]; [tauto|].
  destruct (name_eqb k k') eqn:E.
  - apply name_eqb_eq in E. split; [discriminate|intros H; exfalso; apply H; auto].
  - apply name_eqb_neq in E. rewrite IH. intuition congruence.
Qed.
Lemma in_find {A} k v (m : list (name * A)) : NoDup (map fst m) -> In (k, v) m -> find k m = Some v.
Proof.
  induction m as [|[k' v'] m IH]; cbn [find map In fst]; [tauto|].
  intros H [Hi|Hi]; inversion H as [|? ? Hn Hd]; subst.
  - injection Hi as -> ->. rewrite name_eqb_refl. reflexivity.
  - destruct (name_eqb k k') eqn:E; [|auto].
    apply name_eqb_eq in E; subst. exfalso. apply Hn. apply (in_map fst) in Hi. exact Hi.
Qed.

Lemma find_put_eq {A} k (v : A) m : find k (put k v m) = Some v.
Proof.
  induction m as [|[k' v'] m IH]; cbn [put find].
  - rewrite name_eqb_refl; reflexivity.
  - destruct (name_cmp k k') eqn:E; cbn [find]; try (rewrite name_eqb_refl; reflexivity).
    unfold name_eqb. rewrite E. exact IH.
Qed.
Lemma find_put_neq {A} k k0 (v : A) m : k0 <> k -> find k0 (put k v m) = find k0 m.
Proof.
  intros Hn. induction m as [|[k' v'] m IH]; cbn [put find].
  - apply name_eqb_neq in Hn. rewrite Hn; reflexivity.
  - destruct (name_cmp k k') eqn:E; cbn [find].
    + apply name_cmp_eq in E. subst k'. apply name_eqb_neq in Hn. rewrite Hn. reflexivity.
    + rewrite (proj2 (name_eqb_neq k0 k) Hn). reflexivity.
    + rewrite IH. reflexivity.
Qed.

(** Sorting a map: what the JSON object holds *)
Definition sorted {A} (m : list (name * A)) : list (name * A) :=
  fold_left (fun o e => put (fst e) (snd e) o) m [].

Definition map_snd {A B} (f : A -> B) (m : list (name * A)) : list (name * B) :=
  map (fun e => (fst e, f (snd e))) m.

Lemma put_map_snd {A B} (f : A -> B) k v m : put k (f v) (map_snd f m) = map_snd f (put k v m).
Proof.
  induction m as [|[k' v'] m IH]; cbn [put map_snd map fst snd]; [reflexivity|].
  destruct (name_cmp k k'); cbn [map fst snd]; try reflexivity.
  f_equal. exact IH.
Qed.
Lemma map_to_json_sorted {A} (ser : A -> json) m :
  map_to_json ser m = JObj (map_snd ser (sorted m)).
Proof.
  unfold map_to_json, sorted. f_equal.
  change (@nil (name * json)) with (map_snd ser (@nil (name * A))).
  generalize (@nil (name * A)) as acc. induction m as [|[k v] m IH]; intros acc; cbn [fold_left fst snd].
  - reflexivity.
  - rewrite put_map_snd. apply IH.
Qed.
Lemma find_map_snd {A B} (f : A -> B) k m : find k (map_snd f m) = option_map f (find k m).
Proof.
  induction m as [|[k' v'] m IH]; cbn [map_snd map find fst snd]; [reflexivity|].
  destruct (name_eqb k k'); [reflexivity|exact IH].
Qed.
Lemma put_perm {A} k (v : A) m : ~ In k (map fst m) -> Permutation (put k v m) ((k, v) :: m).
Proof.
  induction m as [|[k' v'] m IH]; cbn [put map fst In]; intros H; [auto|].
  destruct (name_cmp k k') eqn:E.
  - apply name_cmp_eq in E. exfalso; apply H; auto.
  - auto.
  - eapply perm_trans; [apply perm_skip, IH; tauto|]. apply perm_swap.
Qed.
Lemma sorted_perm {A} (m : list (name * A)) : NoDup (map fst m) -> Permutation (sorted m) m.
Proof.
  intros H. unfold sorted.
  enough (G : forall acc, NoDup (map fst m) -> (forall k, In k (map fst m) -> ~ In k (map fst acc)) ->
     Permutation (fold_left (fun o e => put (fst e) (snd e) o) m acc) (m ++ acc)).
  { specialize (G [] H). rewrite app_nil_r in G. apply G. cbn; tauto. }
  clear H. induction m as [|[k v] m IH]; intros acc Hd Hk; cbn [fold_left fst snd]; [auto|].
  cbn [map fst] in Hd. inversion Hd as [|? ? Hn Hd']; subst.
  eapply perm_trans; [apply IH; [exact Hd'|]|].
  - intros k0 Hk0 Hin.
    assert (P : Permutation (put k v acc) ((k, v) :: acc)) by (apply put_perm, Hk; left; reflexivity).
    apply (Permutation_map fst) in P. cbn [map fst] in P.
    eapply Permutation_in in Hin; [|exact P]. destruct Hin as [->|Hin]; [auto|].
    exact (Hk k0 (or_intror Hk0) Hin).
  - eapply perm_trans; [apply Permutation_app_head, put_perm, Hk; left; reflexivity|].
    apply Permutation_sym, Permutation_middle.
Qed.
Lemma perm_find {A} k (a b : list (name * A)) : NoDup (map fst a) -> Permutation a b -> find k a = find k b.
Proof.
  intros Hd P. assert (Hb : NoDup (map fst b)) by (eapply Permutation_NoDup; [apply Permutation_map, P|exact Hd]).
  destruct (find k a) as [v|] eqn:E.
  - symmetry. apply in_find; [exact Hb|]. eapply Permutation_in; [exact P|]. apply find_in, E.
  - symmetry. apply find_none. apply find_none in E. intros Hin. apply E.
    eapply Permutation_in; [apply Permutation_sym, Permutation_map, P|exact Hin].
Qed.
Lemma sorted_keys {A} (m : list (name * A)) : NoDup (map fst m) -> NoDup (map fst (sorted m)).
Proof. intros H. eapply Permutation_NoDup; [apply Permutation_sym, Permutation_map, sorted_perm, H|exact H]. Qed.
Lemma find_sorted {A} k (m : list (name * A)) : NoDup (map fst m) -> find k (sorted m) = find k m.
Proof. intros H. apply perm_find; [apply sorted_keys, H|apply sorted_perm, H]. Qed.

(** Sorted lists with the same entries are equal *)
Fixpoint ascending {A} (m : list (name * A)) : Prop :=
  match m with
  | [] => True
  | (k, _) :: t => (forall k', In k' (map fst t) -> name_cmp k k' = Lt) /\ ascending t
  end.
Lemma put_keys {A} k (v : A) m k0 : In k0 (map fst (put k v m)) -> k0 = k \/ In k0 (map fst m).
Proof.
  induction m as [|[k' v'] m IH]; cbn [put map fst In]; [intuition|].
  destruct (name_cmp k k'); cbn [map fst In]; intuition.
Qed.
Lemma put_ascending {A} k (v : A) m : ascending m -> ascending (put k v m).
Proof.
  induction m as [|[k' v'] m IH]; cbn [put ascending]; [cbn; tauto|].
  intros [H1 H2]. destruct (name_cmp k k') eqn:E; cbn [ascending map fst].
  - apply name_cmp_eq in E; subst. auto.
  - split; [|auto]. intros k0 [<-|H]; [exact E|]. eapply name_cmp_trans; [exact E|auto].
  - split; [|auto]. intros k0 H. apply put_keys in H. destruct H as [->|H]; [|auto].
    rewrite name_cmp_anti, E. reflexivity.
Qed.
Lemma sorted_ascending {A} (m : list (name * A)) : ascending (sorted m).
Proof.
  unfold sorted. enough (G : forall acc, ascending acc ->
    ascending (fold_left (fun o e => put (fst e) (snd e) o) m acc)) by (apply G; exact I).
  induction m as [|[k v] m IH]; intros acc H; cbn [fold_left]; [exact H|]. apply IH, put_ascending, H.
Qed.
Lemma ascending_nodup {A} (m : list (name * A)) : ascending m -> NoDup (map fst m).
Proof.
  induction m as [|[k v] m IH]; cbn [ascending map fst]; [constructor|].
  intros [H1 H2]. constructor; [|auto]. intros Hin. apply H1 in Hin. rewrite name_cmp_refl in Hin. discriminate.
Qed.
Lemma ascending_ext {A} (a b : list (name * A)) :
  ascending a -> ascending b -> (forall k, find k a = find k b) -> a = b.
Proof.
  revert b; induction a as [|[k v] a IH]; intros b Ha Hb H.
  - destruct b as [|[k v] b]; [reflexivity|]. specialize (H k). cbn [find] in H.
    rewrite name_eqb_refl in H. discriminate.
  - destruct b as [|[k' v'] b].
    { specialize (H k). cbn [find] in H. rewrite name_eqb_refl in H. discriminate. }
    cbn [ascending] in Ha, Hb. destruct Ha as [Ha1 Ha2], Hb as [Hb1 Hb2].
    assert (E : k = k').
    { destruct (name_cmp k k') eqn:E.
      - apply name_cmp_eq, E.
      - specialize (H k). cbn [find] in H. rewrite name_eqb_refl in H.
        unfold name_eqb in H. rewrite E in H. symmetry in H. apply find_in in H.
        apply (in_map fst) in H. cbn [fst] in H. apply Hb1 in H.
        pose proof (name_cmp_trans _ _ _ E H) as T. rewrite name_cmp_refl in T. discriminate.
      - specialize (H k'). cbn [find] in H. rewrite name_eqb_refl in H.
        assert (E' : name_cmp k' k = Lt) by (rewrite name_cmp_anti, E; reflexivity).
        unfold name_eqb in H. rewrite E' in H. apply find_in in H.
        apply (in_map fst) in H. cbn [fst] in H. apply Ha1 in H.
        pose proof (name_cmp_trans _ _ _ E' H) as T. rewrite name_cmp_refl in T. discriminate. }
    subst k'. pose proof (H k) as Hk. cbn [find] in Hk. rewrite name_eqb_refl in Hk.
    injection Hk as <-. f_equal. apply IH; auto.
    intros k0. specialize (H k0). cbn [find] in H. destruct (name_eqb k0 k) eqn:E; [|exact H].
    apply name_eqb_eq in E; subst k0.
    assert (Na : find k a = None).
    { apply find_none. intros Hin. apply Ha1 in Hin. rewrite name_cmp_refl in Hin; discriminate. }
    assert (Nb : find k b = None).
    { apply find_none. intros Hin. apply Hb1 in Hin. rewrite name_cmp_refl in Hin; discriminate. }
    congruence.
Qed.
Lemma sorted_ext {A} (a b : list (name * A)) : NoDup (map fst a) -> NoDup (map fst b) ->
  (forall k, find k a = find k b) -> sorted a = sorted b.
Proof.
  intros Ha Hb H. apply ascending_ext; try apply sorted_ascending.
  intros k. rewrite !find_sorted by assumption. apply H.
Qed.

(** * Equality of maps *)
Lemma map_eqb_spec {A} (eqb : A -> A -> bool) a b : NoDup (map fst a) -> NoDup (map fst b) ->
  map_eqb eqb a b = true <->
  (forall k, match find k a, find k b with
             | Some x, Some y => eqb x y = true
             | None, None => True
             | _, _ => False
             end).
Proof.
  intros Ha Hb. unfold map_eqb. rewrite andb_true_iff, Nat.eqb_eq, forallb_forall. split.
  - intros [Hl Hf] k.
    assert (Hin : incl (map fst a) (map fst b)).
    { intros k0 Hk. apply in_map_iff in Hk. destruct Hk as [[k1 v1] [<- Hk]].
      specialize (Hf _ Hk). cbn [fst snd] in *. destruct (find k1 b) eqn:E; [|discriminate].
      apply find_in in E. apply (in_map fst) in E. exact E. }
    assert (Hin' : incl (map fst b) (map fst a)).
    { apply NoDup_length_incl; [exact Ha| rewrite !map_length; lia|exact Hin]. }
    destruct (find k a) as [x|] eqn:Ea.
    + apply find_in in Ea. specialize (Hf _ Ea). cbn [fst snd] in Hf.
      destruct (find k b); congruence.
    + destruct (find k b) as [y|] eqn:Eb; [|exact I]. apply find_none in Ea. apply Ea, Hin'.
      apply find_in in Eb. apply (in_map fst) in Eb. exact Eb.
  - intros H. split.
    + assert (Hin : incl (map fst a) (map fst b)).
      { intros k Hk. specialize (H k). destruct (find k b) eqn:E.
        - apply find_in in E. apply (in_map fst) in E. exact E.
        - destruct (find k a) eqn:Ea; [tauto|]. apply find_none in Ea. contradiction. }
      assert (Hin' : incl (map fst b) (map fst a)).
      { intros k Hk. specialize (H k). destruct (find k a) eqn:E.
        - apply find_in in E. apply (in_map fst) in E. exact E.
        - destruct (find k b) eqn:Eb; [tauto|]. apply find_none in Eb. contradiction. }
      apply NoDup_incl_length in Hin; [|exact Ha]. apply NoDup_incl_length in Hin'; [|exact Hb].
      rewrite !map_length in *. lia.
    + intros [k v] Hin. cbn [fst snd]. specialize (H k).
      rewrite (in_find _ _ _ Ha Hin) in H. destruct (find k b); [exact H|tauto].
Qed.
Lemma map_eqb_refl {A} (eqb : A -> A -> bool) a : NoDup (map fst a) ->
  (forall x, eqb x x = true) -> map_eqb eqb a a = true.
Proof. intros H R. apply map_eqb_spec; auto. intros k. destruct (find k a); auto. Qed.
Lemma map_eqb_sym {A} (eqb : A -> A -> bool) a b : NoDup (map fst a) -> NoDup (map fst b) ->
  (forall x y, eqb x y = true -> eqb y x = true) -> map_eqb eqb a b = true -> map_eqb eqb b a = true.
Proof.
  intros Ha Hb S H. apply map_eqb_spec; auto. intros k. apply map_eqb_spec with (k := k) in H; auto.
  destruct (find k a), (find k b); auto.
Qed.
Lemma map_eqb_trans {A} (eqb : A -> A -> bool) a b c :
  NoDup (map fst a) -> NoDup (map fst b) -> NoDup (map fst c) ->
  (forall x y z, eqb x y = true -> eqb y z = true -> eqb x z = true) ->
  map_eqb eqb a b = true -> map_eqb eqb b c = true -> map_eqb eqb a c = true.
Proof.
  intros Ha Hb Hc T H1 H2. apply map_eqb_spec; auto. intros k.
  apply map_eqb_spec with (k := k) in H1; auto. apply map_eqb_spec with (k := k) in H2; auto.
  destruct (find k a), (find k b), (find k c); try tauto. eauto.
Qed.

(** Reading back the entries of a map *)
Lemma entries_from_map {A B} (ser : A -> json) (des : json -> out B) (g : A -> B) m seen :
  (forall k v, In (k, v) m -> des (ser v) = Done (g v)) ->
  NoDup (map fst m) -> (forall k, In k (map fst m) -> find k seen = None) ->
  entries_from des (map_snd ser m) seen = Done (rev seen ++ map_snd g m).
Proof.
  revert seen; induction m as [|[k v] m IH]; intros seen Hd Hn Hs; cbn [map_snd map entries_from fst snd].
  - rewrite app_nil_r; reflexivity.
  - rewrite (Hd k v) by (left; reflexivity). cbn [bind].
    rewrite (Hs k) by (left; reflexivity). inversion Hn as [|? ? Hni Hn']; subst.
    change (map (fun e => (fst e, ser (snd e))) m) with (map_snd ser m). rewrite IH; [|eauto using in_cons|exact Hn'|].
    + cbn [rev]. rewrite <- app_assoc. reflexivity.
    + intros k0 Hk0. cbn [find]. destruct (name_eqb k0 k) eqn:E; [|apply Hs; right; exact Hk0].
      apply name_eqb_eq in E; subst. contradiction.
Qed.

(** * Reading back what was written *)

Ltac key := vm_compute; discriminate.
Ltac gets :=
  repeat first
    [ rewrite find_put_eq
    | rewrite find_put_neq by key ].

Lemma find_put_opt_neq k k0 v o : k0 <> k -> find k0 (put_opt k v o) = find k0 o.
Proof. intros H. destruct v; cbn [put_opt]; [apply find_put_neq, H|reflexivity]. Qed.
Lemma find_put_opt_eq k v o : find k (put_opt k v o) =
  match v with Some n => Some (JNum n) | None => find k o end.
Proof. destruct v; cbn [put_opt]; [apply find_put_eq|reflexivity]. Qed.
Ltac getso :=
  repeat first
    [ rewrite find_put_eq
    | rewrite find_put_opt_eq
    | rewrite find_put_neq by key
    | rewrite find_put_opt_neq by key ].

Definition fits (lim : N) (v : option N) : Prop := match v with Some n => n < lim | None => True end.

Lemma get_opt_ok lim o k v : find k o = match v with Some n => Some (JNum n) | None => None end ->
  fits lim v -> get_opt_num lim o k = Done v.
Proof.
  unfold get_opt_num, fits. intros -> H. destruct v as [n|]; [|reflexivity].
  rewrite (proj2 (N.ltb_lt n lim)) by exact H. reflexivity.
Qed.
Lemma get_num_ok lim o k n : find k o = Some (JNum n) -> n < lim -> get_num lim o k = Done n.
Proof. unfold get_num. intros -> H. rewrite (proj2 (N.ltb_lt n lim)) by exact H. reflexivity. Qed.
Lemma get_bool_ok o k b : find k o = Some (JBool b) -> get_bool o k = Done b.
Proof. unfold get_bool. intros ->. reflexivity. Qed.
Lemma get_obj_ok o k b : find k o = Some (JObj b) -> get_obj o k = Done b.
Proof. unfold get_obj. intros ->. reflexivity. Qed.
Lemma get_str_ok o k b : find k o = Some (JStr b) -> get_str o k = Done b.
Proof. unfold get_str. intros ->. reflexivity. Qed.
Lemma check_version_ok o : find k_version o = Some (JNum 1) -> check_version o = Done tt.
Proof. intros H. unfold check_version. rewrite (get_num_ok _ _ _ 1) by (exact H || reflexivity). reflexivity. Qed.
Lemma map_json_ok {A B} (ser : A -> json) (des : json -> out B) (g : A -> B) o k m :
  find k o = Some (map_to_json ser m) ->
  (forall k v, In (k, v) m -> des (ser v) = Done (g v)) -> NoDup (map fst m) ->
  map_from_json des o k = Done (map_snd g (sorted m)).
Proof.
  intros H Hd Hn. unfold map_from_json. rewrite map_to_json_sorted in H. rewrite (get_obj_ok _ _ _ H).
  cbn [bind]. rewrite (entries_from_map ser des g); [reflexivity| |apply sorted_keys, Hn|reflexivity].
  intros k0 v0 Hin. apply (Hd k0). eapply Permutation_in; [apply sorted_perm, Hn|exact Hin].
Qed.

(** * Well-formed deployments: the values fit their C++ types, the keys of the maps are distinct *)
Definition wf_event (e : event_depl) : Prop :=
  fits two16 (ev_slots e) /\ fits two8 (ev_subs e) /\ fits two8 (ev_allocs e) /\ ev_tracing e < two8.
Definition wf_method (m : method_depl) : Prop := fits two8 (md_queue m).
Definition wf_ids (m : list (name * N)) : Prop :=
  NoDup (map fst m) /\ (forall k n, In (k, n) m -> n < two16).
Definition wf_type (t : type_depl) : Prop :=
  match t with
  | TLola x => lt_id x < two16 /\ wf_ids (lt_events x) /\ wf_ids (lt_fields x) /\ wf_ids (lt_methods x)
  | TBlank => True
  end.
Definition wf_service (s : service) : Prop := sv_major s < two32 /\ sv_minor s < two32.
Definition wf_users (m : list (name * list N)) : Prop :=
  NoDup (map fst m) /\
  (forall k l, In (k, l) m -> (exists q, k = quality_text q) /\ (forall u, In u l -> u < two32)).
Definition wf_lola_inst (d : lola_inst) : Prop :=
  fits two16 (li_id d) /\ fits two64 (li_shm d) /\ fits two64 (li_b d) /\ fits two64 (li_qm d) /\
  (NoDup (map fst (li_events d)) /\ forall k e, In (k, e) (li_events d) -> wf_event e) /\
  (NoDup (map fst (li_fields d)) /\ forall k f, In (k, f) (li_fields d) -> wf_event (fd_event f)) /\
  (NoDup (map fst (li_methods d)) /\ forall k m, In (k, m) (li_methods d) -> wf_method m) /\
  wf_users (li_consumer d) /\ wf_users (li_provider d).
Definition wf_inst (d : inst_depl) : Prop :=
  wf_service (in_service d) /\ create_specifier (in_spec d) = Some (in_spec d) /\
  match in_binding d with BLola l => wf_lola_inst l | BBlank => True end.

(** The deployment with its numbers of tracing slots set to 0 *)
Definition untraced_event (e : event_depl) : event_depl :=
  mkEv (ev_slots e) (ev_subs e) (ev_allocs e) (ev_enforce e) 0.
Definition untraced_field (f : field_depl) : field_depl :=
  mkFd (untraced_event (fd_event f)) (fd_get f) (fd_set f).

Lemma event_round e : wf_event e -> des_event (ser_event e) = Done (untraced_event e).
Proof.
  intros (H1 & H2 & H3 & H4). unfold des_event, ser_event.
  rewrite check_version_ok by (getso; reflexivity). cbn [bind].
  rewrite (get_opt_ok two16 _ k_slots (ev_slots e)) by (getso; destruct (ev_slots e); reflexivity || exact H1).
  rewrite (get_opt_ok two8 _ k_subs (ev_subs e)) by (getso; destruct (ev_subs e); reflexivity || exact H2).
  rewrite (get_opt_ok two8 _ k_allocs (ev_allocs e)) by (getso; destruct (ev_allocs e); reflexivity || exact H3).
  cbn [bind]. rewrite (get_bool_ok _ k_enforce (ev_enforce e)) by (getso; reflexivity). cbn [bind].
  rewrite (get_opt_ok two8 _ k_tracing (Some 0)) by (getso; reflexivity).
  reflexivity.
Qed.
Lemma field_round f : wf_event (fd_event f) -> des_field (ser_field f) = Done (untraced_field f).
Proof.
  intros H. unfold des_field. 
  assert (E : des_event (ser_field f) = des_event (ser_event (fd_event f))).
  { unfold des_event, check_version, get_num, get_opt_num, get_bool, ser_field.
    rewrite !find_put_neq by key. reflexivity. }
  rewrite E, event_round by exact H. cbn [bind]. unfold ser_field.
  rewrite (get_bool_ok _ k_get (fd_get f)) by (gets; reflexivity). cbn [bind].
  rewrite (get_bool_ok _ k_set (fd_set f)) by (gets; reflexivity). reflexivity.
Qed.
Lemma method_round m : wf_method m -> des_method (ser_method m) = Done m.
Proof.
  unfold wf_method. intros H. unfold des_method, ser_method.
  rewrite (get_opt_ok two8 _ k_queue (md_queue m)) by (getso; destruct (md_queue m); reflexivity || exact H).
  cbn [bind]. rewrite (get_bool_ok _ k_use (md_use m)) by (getso; reflexivity).
  destruct m; reflexivity.
Qed.
Lemma service_round s : wf_service s -> des_service (ser_service s) = Done s.
Proof.
  intros [H1 H2]. unfold des_service, ser_service.
  rewrite (get_str_ok _ k_type_name (sv_name s)) by (gets; reflexivity). cbn [bind].
  rewrite (get_obj_ok _ k_service_version (ser_version s)) by (gets; reflexivity). cbn [bind].
  rewrite (get_num_ok two32 _ k_major (sv_major s)) by (unfold ser_version; gets; reflexivity || exact H1). cbn [bind].
  rewrite (get_num_ok two32 _ k_minor (sv_minor s)) by (unfold ser_version; gets; reflexivity || exact H2). cbn [bind].
  rewrite check_version_ok by (unfold ser_version; gets; reflexivity). cbn [bind].
  rewrite check_version_ok by (gets; reflexivity). destruct s; reflexivity.
Qed.
Lemma id_round n : n < two16 -> des_id (JNum n) = Done n.
Proof. intros H. unfold des_id. rewrite (proj2 (N.ltb_lt n two16)) by exact H. reflexivity. Qed.
Lemma map_snd_id {A} (m : list (name * A)) : map_snd (fun x => x) m = m.
Proof. unfold map_snd. rewrite <- (map_id m) at 2. apply map_ext. intros [k v]; reflexivity. Qed.

(** The type deployment with its maps in the order of the keys *)
Definition norm_type (t : type_depl) : type_depl :=
  match t with
  | TLola x => TLola (mkLt (lt_id x) (sorted (lt_events x)) (sorted (lt_fields x)) (sorted (lt_methods x)))
  | TBlank => TBlank
  end.
Lemma lola_type_round x : lt_id x < two16 -> wf_ids (lt_events x) -> wf_ids (lt_fields x) ->
  wf_ids (lt_methods x) ->
  des_lola_type (ser_lola_type x) =
  Done (mkLt (lt_id x) (sorted (lt_events x)) (sorted (lt_fields x)) (sorted (lt_methods x))).
Proof.
  intros H1 [H2 H2'] [H3 H3'] [H4 H4']. unfold des_lola_type, ser_lola_type.
  rewrite (get_num_ok two16 _ k_service_id (lt_id x)) by (gets; reflexivity || exact H1). cbn [bind].
  rewrite (map_json_ok JNum des_id (fun n => n) _ k_events (lt_events x));
    [|gets; reflexivity|intros k n Hin; apply id_round; eauto|exact H2]. cbn [bind].
  rewrite (map_json_ok JNum des_id (fun n => n) _ k_fields (lt_fields x));
    [|gets; reflexivity|intros k n Hin; apply id_round; eauto|exact H3]. cbn [bind].
  rewrite (map_json_ok JNum des_id (fun n => n) _ k_methods (lt_methods x));
    [|gets; reflexivity|intros k n Hin; apply id_round; eauto|exact H4]. cbn [bind].
  rewrite check_version_ok by (gets; reflexivity). cbn [bind]. rewrite !map_snd_id. reflexivity.
Qed.
Lemma type_round t : wf_type t -> des_type (ser_type t) = Done (norm_type t).
Proof.
  destruct t as [x|]; intros H; unfold des_type, ser_type.
  - destruct H as (H1 & H2 & H3 & H4).
    rewrite (get_num_ok two63 _ k_index 0) by (gets; reflexivity). cbn [bind N.eqb].
    rewrite (get_obj_ok _ k_binding (ser_lola_type x)) by (gets; reflexivity). cbn [bind].
    rewrite lola_type_round by assumption. cbn [bind].
    rewrite check_version_ok by (gets; reflexivity). reflexivity.
  - vm_compute. reflexivity.
Qed.

Lemma uids_round l : (forall u, In u l -> u < two32) -> des_uids (map JNum l) = Done l.
Proof.
  induction l as [|u l IH]; intros H; cbn [map des_uids]; [reflexivity|].
  rewrite (proj2 (N.ltb_lt u two32)) by (apply H; left; reflexivity).
  rewrite IH by (intros v Hv; apply H; right; exact Hv). reflexivity.
Qed.
Lemma quality_text_of q : quality_of (quality_text q) = Done q.
Proof. destruct q; vm_compute; reflexivity. Qed.
Lemma users_round o k m : find k o = Some (map_to_json (fun l => JList (map JNum l)) m) -> wf_users m ->
  des_uid_map o k = Done (sorted m).
Proof.
  intros H [Hn Hu]. unfold des_uid_map.
  rewrite (map_json_ok (fun l => JList (map JNum l)) des_uid_list (fun l => l) o k m H);
    [|intros k0 l Hin; apply uids_round; exact (proj2 (Hu _ _ Hin))|exact Hn].
  cbn [bind]. rewrite map_snd_id.
  replace (forallb _ (sorted m)) with true; [reflexivity|].
  symmetry. apply forallb_forall. intros [k0 l] Hin. cbn [fst].
  assert (Hin' : In (k0, l) m) by (eapply Permutation_in; [apply sorted_perm, Hn|exact Hin]).
  destruct (proj1 (Hu _ _ Hin')) as [q ->]. rewrite quality_text_of. reflexivity.
Qed.

(** The instance deployment with its maps in the order of the keys and without tracing slots *)
Definition norm_lola (d : lola_inst) : lola_inst :=
  mkLi (li_id d) (li_shm d) (li_b d) (li_qm d)
    (map_snd untraced_event (sorted (li_events d))) (map_snd untraced_field (sorted (li_fields d)))
    (sorted (li_methods d)) (li_strict d) (sorted (li_consumer d)) (sorted (li_provider d))
    (li_vm d) (li_forwarded d).
Definition norm_inst (d : inst_depl) : inst_depl :=
  mkInst (in_service d) (match in_binding d with BLola l => BLola (norm_lola l) | BBlank => BBlank end)
    (in_asil d) (in_spec d).

Lemma lola_inst_round d : wf_lola_inst d -> des_lola_inst (ser_lola_inst d) = Done (norm_lola d).
Proof.
  intros (H1 & H2 & H3 & H4 & [H5 H5'] & [H6 H6'] & [H7 H7'] & H8 & H9).
  unfold des_lola_inst, ser_lola_inst.
  set (base := match li_id d with Some i => put k_instance_id _ _ | None => _ end).
  assert (B : forall k, k <> k_instance_id -> k <> k_version -> find k base = None).
  { intros k Hk1 Hk2. unfold base. destruct (li_id d); rewrite ?find_put_neq by assumption; reflexivity. }
  assert (Bv : find k_version base = Some (JNum 1)).
  { unfold base. destruct (li_id d); gets; reflexivity. }
  assert (Bi : find k_instance_id base = match li_id d with Some i => Some (JObj (ser_instance_id i)) | None => None end).
  { unfold base. destruct (li_id d); gets; reflexivity. }
  clearbody base.
  rewrite (map_json_ok (fun m => JObj (ser_event m)) (as_object des_event) untraced_event _ k_events (li_events d));
    [|getso; reflexivity|intros k e Hin; cbn [as_object]; apply event_round; eauto|exact H5]. cbn [bind].
  rewrite (map_json_ok (fun m => JObj (ser_field m)) (as_object des_field) untraced_field _ k_fields (li_fields d));
    [|getso; reflexivity|intros k e Hin; cbn [as_object]; apply field_round; eauto|exact H6]. cbn [bind].
  rewrite (map_json_ok (fun m => JObj (ser_method m)) (as_object des_method) (fun m => m) _ k_methods (li_methods d));
    [|getso; reflexivity|intros k e Hin; cbn [as_object]; apply method_round; eauto|exact H7]. cbn [bind].
  rewrite (get_bool_ok _ k_strict (li_strict d)) by (getso; reflexivity). cbn [bind].
  rewrite (users_round _ k_consumer (li_consumer d)) by (getso; reflexivity || assumption). cbn [bind].
  rewrite (users_round _ k_provider (li_provider d)) by (getso; reflexivity || assumption). cbn [bind].
  rewrite (get_bool_ok _ k_vm (li_vm d)) by (getso; reflexivity). cbn [bind].
  rewrite (get_bool_ok _ k_vm_forwarded (li_forwarded d)) by (getso; reflexivity). cbn [bind].
  rewrite check_version_ok by (getso; exact Bv). cbn [bind].
  match goal with |- context[des_opt_id ?o] => assert (Hid : des_opt_id o = Done (li_id d)) end.
  { unfold des_opt_id. getso. rewrite Bi. destruct (li_id d) as [i|]; [|reflexivity].
    unfold des_instance_id, ser_instance_id.
    rewrite (get_num_ok two16 _ k_instance_id i) by (gets; reflexivity || exact H1). cbn [bind].
    rewrite check_version_ok by (gets; reflexivity). reflexivity. }
  rewrite Hid. cbn [bind].
  rewrite (get_opt_ok two64 _ k_shm_size (li_shm d)) by (getso; rewrite ?B by key; destruct (li_shm d); reflexivity || exact H2).
  cbn [bind].
  rewrite (get_opt_ok two64 _ k_b_size (li_b d)) by (getso; rewrite ?B by key; destruct (li_b d); reflexivity || exact H3).
  cbn [bind].
  rewrite (get_opt_ok two64 _ k_qm_size (li_qm d)) by (getso; rewrite ?B by key; destruct (li_qm d); reflexivity || exact H4).
  cbn [bind]. rewrite map_snd_id. reflexivity.
Qed.
Lemma inst_round d : wf_inst d -> des_inst (ser_inst d) = Done (norm_inst d).
Proof.
  intros (H1 & H2 & H3). unfold des_inst, ser_inst.
  rewrite (get_obj_ok _ k_service (ser_service (in_service d))) by (gets; reflexivity). cbn [bind].
  rewrite service_round by exact H1. cbn [bind].
  destruct (in_binding d) as [l|] eqn:E.
  - rewrite (get_num_ok two63 _ k_index 0) by (gets; reflexivity). cbn [bind N.eqb].
    rewrite (get_obj_ok _ k_binding (ser_lola_inst l)) by (gets; reflexivity). cbn [bind].
    rewrite lola_inst_round by exact H3. cbn [bind].
    rewrite (get_str_ok _ k_asil (quality_text (in_asil d))) by (gets; reflexivity). cbn [bind].
    rewrite quality_text_of. cbn [bind].
    rewrite (get_str_ok _ k_spec (in_spec d)) by (gets; reflexivity). cbn [bind].
    rewrite H2. cbn [bind]. rewrite check_version_ok by (gets; reflexivity). cbn [bind].
    unfold norm_inst. rewrite E. reflexivity.
  - rewrite (get_num_ok two63 _ k_index 1) by (gets; reflexivity). cbn [bind].
    change (1 =? 0) with false. change (1 =? 1) with true. cbn [bind].
    rewrite (get_str_ok _ k_asil (quality_text (in_asil d))) by (gets; reflexivity). cbn [bind].
    rewrite quality_text_of. cbn [bind].
    rewrite (get_str_ok _ k_spec (in_spec d)) by (gets; reflexivity). cbn [bind].
    rewrite H2. cbn [bind]. rewrite check_version_ok by (gets; reflexivity). cbn [bind].
    unfold norm_inst. rewrite E. reflexivity.
Qed.
