(** Merging configurations (C99), the configuration during the life of a process (C100) and the users
    that may exchange messages with it (C101). *)
From Coq Require Import String Sorting.Permutation.
From Verif Require Import Base NamesModel DeplModel ConfModel DeplProofs IdentProps IdentOrderProps.
Open Scope N_scope.

(** * Specification *)

(** Nothing is configured in both configurations *)
Definition disjoint (c x : conf) : Prop :=
  (forall s, get_type c s = None \/ get_type x s = None) /\
  (forall k, get_inst c k = None \/ get_inst x k = None).

(** Every lookup that gives something in [c] gives the same in [c'] *)
Definition grows (c c' : conf) : Prop :=
  (forall s t, get_type c s = Some t -> get_type c' s = Some t) /\
  (forall k d, get_inst c k = Some d -> get_inst c' k = Some d) /\ c_level c' = c_level c.

(** What a user expects of the instance [d] of a usable configuration: its service has a type with the
    same binding that knows its events and fields, and it asks for ASIL B only in an ASIL-B process *)
Definition usable (c : conf) (d : inst_depl) : Prop :=
  (exists l t, in_binding d = BLola l /\ get_type c (in_service d) = Some (TLola t) /\
     (forall e v, In (e, v) (li_events l) -> find e (lt_events t) <> None) /\
     (forall f v, In (f, v) (li_fields l) -> find f (lt_fields t) <> None)) /\
  (in_asil d = QB -> c_level c = QB).

(** Running a sequence of calls *)
Fixpoint execs (p : process) (l : list call) : out process :=
  match l with
  | [] => Done p
  | x :: r => p' <- exec p x ;; execs p' r
  end.

(** * Looking up in all generations *)

Lemma service_eqb_refl s : service_eqb s s = true.
Proof. apply service_eqb_eq. reflexivity. Qed.
Lemma service_eqb_neq a b : service_eqb a b = false <-> a <> b.
Proof. rewrite <- service_eqb_eq. destruct (service_eqb a b); split; congruence. Qed.

Lemma find_type_filter s0 s m :
  find_type s0 (filter (fun e => negb (service_eqb s (fst e))) m) = if service_eqb s s0 then None else find_type s0 m.
Proof.
  induction m as [|[s1 t] m IH]; cbn [filter find_type fst]; [destruct (service_eqb s s0); reflexivity|].
  destruct (service_eqb s s1) eqn:E; cbn [negb]; [|cbn [find_type]]; rewrite IH.
  - apply service_eqb_eq in E. subst s1. destruct (service_eqb s s0) eqn:F; [reflexivity|].
    destruct (service_eqb s0 s) eqn:G; [|reflexivity]. apply service_eqb_eq in G. subst. rewrite service_eqb_refl in F. discriminate.
  - destruct (service_eqb s0 s1) eqn:G; [|reflexivity]. apply service_eqb_eq in G. subst. rewrite E. reflexivity.
Qed.
Lemma find_flat_types s l : find_type s (flat_types l) = find_type s l.
Proof.
  induction l as [|[s1 t] l IH]; [reflexivity|]. cbn [flat_types find_type].
  destruct (service_eqb s s1) eqn:E; [reflexivity|]. rewrite find_type_filter, IH.
  destruct (service_eqb s1 s) eqn:F; [|reflexivity]. apply service_eqb_eq in F. subst. rewrite service_eqb_refl in E. discriminate.
Qed.
Lemma find_type_app s a b : find_type s (a ++ b) = match find_type s a with Some t => Some t | None => find_type s b end.
Proof. induction a as [|[s1 t] a IH]; cbn; [reflexivity|]. destruct (service_eqb s s1); [reflexivity|exact IH]. Qed.
Lemma find_all_types c s : find_type s (all_types c) = get_type c s.
Proof.
  unfold all_types, get_type. rewrite find_flat_types. induction (c_types c) as [|m g IH]; [reflexivity|].
  cbn [concat gen_type]. rewrite find_type_app, IH. reflexivity.
Qed.
Lemma find_type_in s t m : find_type s m = Some t -> In (s, t) m.
Proof.
  induction m as [|[s1 u] m IH]; cbn; [discriminate|]. destruct (service_eqb s s1) eqn:E; [|auto].
  apply service_eqb_eq in E. intros [= ->]. left. congruence.
Qed.
Lemma in_find_type s t m : In (s, t) m -> find_type s m <> None.
Proof.
  induction m as [|[s1 u] m IH]; cbn; [intros []|]. intros [[= -> ->]|H].
  - rewrite service_eqb_refl. discriminate.
  - destruct (service_eqb s s1); [discriminate|auto].
Qed.

Lemma find_filter k0 k (m : list (name * inst_depl)) :
  find k0 (filter (fun e => negb (name_eqb k (fst e))) m) = if name_eqb k k0 then None else find k0 m.
Proof.
  induction m as [|[k1 t] m IH]; cbn [filter find fst]; [destruct (name_eqb k k0); reflexivity|].
  destruct (name_eqb k k1) eqn:E; cbn [negb]; [|cbn [find]]; rewrite IH.
  - apply name_eqb_eq in E. subst k1. destruct (name_eqb k k0) eqn:F; [reflexivity|].
    rewrite name_eqb_sym, F. reflexivity.
  - destruct (name_eqb k0 k1) eqn:G; [|reflexivity]. apply name_eqb_eq in G. subst. rewrite E. reflexivity.
Qed.
Lemma find_flat_insts k l : find k (flat_insts l) = find k l.
Proof.
  induction l as [|[k1 t] l IH]; [reflexivity|]. cbn [flat_insts find].
  destruct (name_eqb k k1) eqn:E; [reflexivity|]. rewrite find_filter, IH, name_eqb_sym, E. reflexivity.
Qed.
Lemma find_app k (a b : list (name * inst_depl)) : find k (a ++ b) = match find k a with Some t => Some t | None => find k b end.
Proof. induction a as [|[k1 t] a IH]; cbn; [reflexivity|]. destruct (name_eqb k k1); [reflexivity|exact IH]. Qed.
Lemma find_all_insts c k : find k (all_insts c) = get_inst c k.
Proof.
  unfold all_insts, get_inst. rewrite find_flat_insts. induction (c_insts c) as [|m g IH]; [reflexivity|].
  cbn [concat gen_inst]. rewrite find_app, IH. reflexivity.
Qed.
Lemma flat_insts_nodup l : NoDup (map fst (flat_insts l)).
Proof.
  induction l as [|[k d] l IH]; cbn [flat_insts map fst]; [constructor|]. constructor.
  - rewrite in_map_iff. intros [[k1 d1] [E H]]. apply filter_In in H. destruct H as [_ H]. cbn in *. subst.
    rewrite name_eqb_refl in H. discriminate.
  - revert IH. generalize (flat_insts l). intros m H. induction m as [|x m IHm]; [constructor|].
    inversion H as [|? ? H1 H2]; subst. cbn [filter].
    match goal with |- context [if ?b then _ else _] => destruct b end; [|auto].
    cbn [map]. constructor; [|auto]. intros X. apply H1. rewrite in_map_iff in X |- *.
    destruct X as [y [Y1 Y2]]. apply filter_In in Y2. exists y. tauto.
Qed.
Lemma in_all_insts c k d : In (k, d) (all_insts c) <-> get_inst c k = Some d.
Proof.
  rewrite <- find_all_insts. split; [|apply find_in]. unfold all_insts.
  pose proof (flat_insts_nodup (concat (c_insts c))) as N. revert N. generalize (flat_insts (concat (c_insts c))).
  intros m N. induction m as [|[k1 d1] m IH]; [intros []|]. cbn [map fst] in N. inversion N as [|? ? N1 N2]; subst.
  intros [[= -> ->]|H]; cbn [find]; [rewrite name_eqb_refl; reflexivity|].
  destruct (name_eqb k k1) eqn:E; [|auto]. apply name_eqb_eq in E. subst. exfalso. apply N1.
  apply in_map_iff. exists (k1, d). auto.
Qed.

Lemma in_all_types c s t : In (s, t) (all_types c) <-> get_type c s = Some t.
Proof.
  rewrite <- find_all_types. split; [|apply find_type_in]. unfold all_types. generalize (concat (c_types c)). intros l.
  induction l as [|[s1 t1] l IH]; cbn [flat_types find_type]; [intros []|]. intros [E|H].
  - injection E as -> ->. rewrite service_eqb_refl. reflexivity.
  - apply filter_In in H. cbn [fst] in H. destruct H as [H N]. destruct (service_eqb s s1) eqn:E.
    + apply service_eqb_eq in E. subst. rewrite service_eqb_refl in N. discriminate.
    + rewrite find_type_filter. destruct (service_eqb s1 s); [discriminate N|]. auto.
Qed.

(** * C99: merging *)

Definition known_type c (e : service * type_depl) := match get_type c (fst e) with Some _ => true | None => false end.
Definition known_inst c (e : name * inst_depl) := match get_inst c (fst e) with Some _ => true | None => false end.

Lemma clash_types c x : existsb (known_type c) (all_types x) = false <-> (forall s, get_type c s = None \/ get_type x s = None).
Proof.
  split.
  - intros H s. destruct (get_type x s) as [t|] eqn:E; [|auto]. left.
    rewrite <- find_all_types in E. apply find_type_in in E.
    destruct (get_type c s) as [u|] eqn:F; [|reflexivity]. exfalso.
    assert (X : existsb (known_type c) (all_types x) = true).
    { apply existsb_exists. exists (s, t). split; [exact E|]. unfold known_type. cbn [fst]. rewrite F. reflexivity. }
    congruence.
  - intros H. destruct (existsb _ _) eqn:E; [|reflexivity]. apply existsb_exists in E. destruct E as [[s t] [E1 E2]].
    apply in_find_type in E1. rewrite find_all_types in E1. unfold known_type in E2. cbn [fst] in E2.
    destruct (H s) as [X|X]; [rewrite X in E2; discriminate|contradiction].
Qed.
Lemma clash_insts c x : existsb (known_inst c) (all_insts x) = false <-> (forall k, get_inst c k = None \/ get_inst x k = None).
Proof.
  split.
  - intros H k. destruct (get_inst x k) as [d|] eqn:E; [|auto]. left. apply in_all_insts in E.
    destruct (get_inst c k) as [u|] eqn:F; [|reflexivity]. exfalso.
    assert (X : existsb (known_inst c) (all_insts x) = true).
    { apply existsb_exists. exists (k, d). split; [exact E|]. unfold known_inst. cbn [fst]. rewrite F. reflexivity. }
    congruence.
  - intros H. destruct (existsb _ _) eqn:E; [|reflexivity]. apply existsb_exists in E. destruct E as [[k d] [E1 E2]].
    apply in_all_insts in E1. unfold known_inst in E2. cbn [fst] in E2.
    destruct (H k) as [X|X]; [rewrite X in E2; discriminate|congruence].
Qed.

Definition push {A} (m : list A) (g : list (list A)) := match m with [] => g | _ => m :: g end.
Lemma put_types c ts s : gen_type s (push ts (c_types c)) =
  match find_type s ts with Some t => Some t | None => get_type c s end.
Proof. destruct ts; reflexivity. Qed.

Lemma merge_eq c x : merge c x =
  if existsb (known_type c) (all_types x) then (c, Some DuplicateType)
  else
    let c1 := mkConf (push (all_types x) (c_types c)) (c_insts c) (c_level c) in
    if existsb (known_inst c) (all_insts x) then (c1, Some DuplicateInstance)
    else (mkConf (c_types c1) (push (all_insts x) (c_insts c)) (c_level c), None).
Proof.
  unfold merge. cbv zeta. fold (known_type c) (known_inst c).
  change (fun e => match get_type c (fst e) with Some _ => true | None => false end) with (known_type c).
  change (fun e => match get_inst c (fst e) with Some _ => true | None => false end) with (known_inst c).
  destruct (existsb (known_type c) (all_types x)); [reflexivity|].
  destruct (existsb (known_inst c) (all_insts x)).
  - destruct (all_types x); [destruct c; reflexivity|reflexivity].
  - destruct (all_types x), (all_insts x), c; reflexivity.
Qed.

(** A merge succeeds exactly if nothing is configured twice. *)
Theorem C99_succeeds : forall c x, snd (merge c x) = None <-> disjoint c x.
Proof.
  intros c x. rewrite merge_eq. unfold disjoint. rewrite <- clash_types, <- clash_insts. cbv zeta.
  destruct (existsb (known_type c) (all_types x)); cbn [snd]; [split; [discriminate|intros [H _]; discriminate]|].
  destruct (existsb (known_inst c) (all_insts x)); cbn [snd]; [split; [discriminate|intros [_ H]; discriminate]|tauto].
Qed.

(** After a successful merge every lookup gives what one of the two configurations gave. *)
Theorem C99_contents : forall c x c', merge c x = (c', None) ->
  (forall s t, get_type c' s = Some t <-> get_type c s = Some t \/ get_type x s = Some t) /\
  (forall k d, get_inst c' k = Some d <-> get_inst c k = Some d \/ get_inst x k = Some d) /\
  c_level c' = c_level c.
Proof.
  intros c x c' H. assert (D : disjoint c x) by (apply C99_succeeds; rewrite H; reflexivity).
  destruct D as [D1 D2]. rewrite merge_eq in H. cbv zeta in H.
  destruct (existsb (known_type c) (all_types x)); [discriminate|].
  destruct (existsb (known_inst c) (all_insts x)); [discriminate|]. injection H as <-.
  split; [|split; [|reflexivity]].
  - intros s t. unfold get_type at 1. cbn [c_types]. rewrite (put_types c (all_types x)), find_all_types.
    destruct (D1 s) as [X|X]; rewrite X; destruct (get_type c s), (get_type x s); intuition congruence.
  - intros k d. unfold get_inst at 1. cbn [c_insts].
    assert (E : gen_inst k (push (all_insts x) (c_insts c)) =
                match find k (all_insts x) with Some t => Some t | None => get_inst c k end)
      by (destruct (all_insts x); reflexivity).
    rewrite E, find_all_insts.
    destruct (D2 k) as [X|X]; rewrite X; destruct (get_inst c k), (get_inst x k); intuition congruence.
Qed.

(** A failed merge never changes what was configured before, nor the instances. *)
Theorem C99_failed_partial : forall c x c' e, merge c x = (c', Some e) ->
  grows c c' /\ (forall k, get_inst c' k = get_inst c k) /\ (e = DuplicateType -> c' = c).
Proof.
  intros c x c' e H. rewrite merge_eq in H. cbv zeta in H.
  destruct (existsb (known_type c) (all_types x)) eqn:E.
  - injection H as <- <-. repeat split; auto.
  - destruct (existsb (known_inst c) (all_insts x)); [|discriminate]. injection H as <- <-.
    assert (G : forall s t, get_type c s = Some t ->
      get_type (mkConf (push (all_types x) (c_types c)) (c_insts c) (c_level c)) s = Some t).
    { intros s t Hs. unfold get_type at 1. cbn [c_types]. rewrite (put_types c (all_types x)), find_all_types.
      apply clash_types with (s := s) in E. destruct E as [E|E]; [congruence|]. rewrite E. exact Hs. }
    split; [split; [exact G|split; [intros k d Hk; exact Hk|reflexivity]]|]. split; [reflexivity|discriminate].
Qed.

(** Another service with one more port; its second version clashes with port A *)
Definition other_service : service := mkSv (str "/bmw/Door") 2 0.
Definition other_inst (k : name) (users : list (name * list N)) : inst_depl :=
  mkInst other_service (BLola (mkLi (Some 1) None None None [] [] [] false users [] false false)) QQM k.
Definition other_conf (k : name) : conf :=
  make_conf [(other_service, TLola (mkLt 99 [] [] []))] [(k, other_inst k [])] QQM.
(** A merge that fails because of an instance leaves the new service types in the configuration. *)
Theorem C99_failed_refuted : exists c x c' e s t,
  validate c = None /\ validate x = None /\ merge c x = (c', Some e) /\ get_type c s = None /\ get_type c' s = Some t.
Proof.
  exists (ex_conf 0), (other_conf port_a). do 2 eexists. exists other_service. eexists.
  split; [vm_compute; reflexivity|]. split; [vm_compute; reflexivity|]. split; [reflexivity|]. split; vm_compute; reflexivity.
Qed.
Example ex_merge : exists c', merge (ex_conf 0) (other_conf port_c) = (c', None) /\ validate c' = None.
Proof. eexists. split; [reflexivity|vm_compute; reflexivity]. Qed.

(** * C100: the life of a process *)

Lemma first_error_none f l : first_error f l = None <-> (forall k d, In (k, d) l -> f d = None).
Proof.
  induction l as [|[k d] l IH]; cbn [first_error]; [split; [intros _ k d []|reflexivity]|].
  destruct (f d) eqn:E.
  - split; [discriminate|]. intros H. rewrite (H k d) in E by (left; reflexivity). discriminate.
  - rewrite IH. split.
    + intros H k1 d1 [[= -> ->]|H1]; eauto.
    + intros H k1 d1 H1. eapply H. right. exact H1.
Qed.
Lemma check_inst_none c d : check_inst c d = None <->
  exists l t, in_binding d = BLola l /\ get_type c (in_service d) = Some (TLola t) /\
     (forall e v, In (e, v) (li_events l) -> find e (lt_events t) <> None) /\
     (forall f v, In (f, v) (li_fields l) -> find f (lt_fields t) <> None).
Proof.
  unfold check_inst. rewrite find_all_types.
  assert (B : forall A (m : list (name * A)) (t : list (name * N)),
    forallb (fun e => match find (fst e) t with Some _ => true | None => false end) m = true <->
    forall e v, In (e, v) m -> find e t <> None).
  { intros A m t. rewrite forallb_forall. split.
    - intros H e v Hi. specialize (H (e, v) Hi). cbn in H. destruct (find e t); [discriminate|discriminate].
    - intros H [e v] Hi. specialize (H e v Hi). cbn. destruct (find e t); [reflexivity|contradiction]. }
  destruct (get_type c (in_service d)) as [[t|]|] eqn:T; destruct (in_binding d) as [l|] eqn:L;
    try (split; [discriminate|intros (l' & t' & H1 & H2 & _); congruence]).
  destruct (forallb _ (li_events l)) eqn:E1; [destruct (forallb _ (li_fields l)) eqn:E2|].
  - split; [|reflexivity]. intros _. exists l, t. rewrite B in E1. rewrite B in E2. auto.
  - split; [discriminate|]. intros (l' & t' & [= <-] & [= <-] & _ & H). apply B in H. congruence.
  - split; [discriminate|]. intros (l' & t' & [= <-] & [= <-] & H & _). apply B in H. congruence.
Qed.

(** The validation accepts exactly the configurations whose instances are all usable. *)
Theorem C100_validate : forall c, validate c = None <-> (forall k d, get_inst c k = Some d -> usable c d).
Proof.
  intros c. assert (A : forall d, check_asil c d = None <-> (in_asil d = QB -> c_level c = QB)).
  { intros d. unfold check_asil. destruct (in_asil d), (c_level c); cbn; split; try congruence; intros H; discriminate (H eq_refl). }
  unfold validate, usable. destruct (first_error (check_asil c) (all_insts c)) eqn:E.
  - split; [discriminate|]. intros H. exfalso.
    assert (X : first_error (check_asil c) (all_insts c) = None); [|congruence].
    apply first_error_none. intros k d Hi. apply A. apply in_all_insts in Hi. apply (H k d Hi).
  - rewrite first_error_none in E. rewrite first_error_none. split.
    + intros H k d Hk. apply in_all_insts in Hk. split; [apply check_inst_none|apply A]; eauto.
    + intros H k d Hi. apply in_all_insts in Hi. apply check_inst_none, (H k d Hi).
Qed.

(** The calls of a process that does not create identifiers from strings and whose default file, if it
    is used, is usable *)
Definition checked (l : call) : Prop :=
  match l with
  | UseRuntime d | AddOn d _ => validate d = None
  | CreateIdent _ => False
  | Initialize _ => True
  end.
Definition sound (p : process) : Prop :=
  (forall c, p_init p = Some c -> validate c = None) /\ (forall r, p_run p = Some r -> validate (r_conf r) = None).

Lemma start_conf c r : start c = Done r -> r_conf r = c.
Proof.
  unfold start. destruct (has_lola c); [|intros [= <-]; reflexivity].
  destruct (aggregated_users c QQM); try discriminate. cbn [bind].
  destruct (if quality_eqb (c_level c) QB then aggregated_users c QB else Done []); try discriminate. cbn [bind].
  intros [= <-]. reflexivity.
Qed.
Lemma instance_conf p d r : instance p d = Done r ->
  match p_run p with Some r0 => r = r0 | None => match p_init p with Some c => r_conf r = c | None => r_conf r = d end end.
Proof.
  unfold instance. destruct (p_run p); [congruence|]. destruct (p_init p); apply start_conf.
Qed.
Lemma exec_sound p l p' : sound p -> checked l -> exec p l = Done p' -> sound p'.
Proof.
  intros [H1 H2] C E.
  assert (I : forall d r, validate d = None -> instance p d = Done r -> validate (r_conf r) = None).
  { intros d r V X. apply instance_conf in X. destruct (p_run p) as [r0|]; [subst; auto|].
    destruct (p_init p) as [c|]; subst; auto. }
  destruct l as [c|d|d c|t]; cbn [exec checked] in *.
  - destruct (p_run p) eqn:R; [injection E as <-; split; auto; rewrite R; auto|].
    destruct (validate c) eqn:V; [discriminate|]. injection E as <-. split; cbn; intros; congruence.
  - destruct (instance p d) as [r| |] eqn:X; try discriminate. cbn [bind] in E. injection E as <-.
    split; cbn; [discriminate|]. intros r' [= <-]. eauto.
  - destruct (instance p d) as [r| |] eqn:X; try discriminate. cbn [bind] in E.
    destruct (merge (r_conf r) c) as [c' [e|]]; [discriminate|]. destruct (validate c') eqn:V; [discriminate|].
    injection E as <-. split; cbn; [discriminate|]. intros r' [= <-]. exact V.
  - contradiction.
Qed.
Lemma execs_app p a b : execs p (a ++ b) = (q <- execs p a ;; execs q b).
Proof.
  revert p. induction a as [|l a IH]; intros p; cbn [app execs bind]; [reflexivity|].
  destruct (exec p l); cbn [bind]; auto.
Qed.
Lemma execs_sound ls : forall p p', sound p -> Forall checked ls -> execs p ls = Done p' -> sound p'.
Proof.
  induction ls as [|l ls IH]; cbn [execs]; intros p p' H C E; [injection E as <-; exact H|].
  inversion C; subst. destruct (exec p l) as [q| |] eqn:X; try discriminate. cbn [bind] in E.
  eapply IH; [|eassumption|exact E]. eapply exec_sound; eauto.
Qed.

(** In such a process every configured port can be resolved, at any time, and is usable. *)
Theorem C100_resolves_partial : forall ls p r k d, Forall checked ls -> execs fresh ls = Done p ->
  p_run p = Some r -> get_inst (r_conf r) k = Some d ->
  usable (r_conf r) d /\ exists t, get_type (r_conf r) (in_service d) = Some t /\ resolve (r_conf r) k = Some (make_ident d t).
Proof.
  intros ls p r k d C E R G.
  assert (S : sound p) by (apply (execs_sound ls fresh p); [split; discriminate|exact C|exact E]).
  destruct S as [_ S]. pose proof (proj1 (C100_validate _) (S r R) k d G) as U. split; [exact U|].
  destruct U as [(l & t & _ & T & _) _]. exists (TLola t). split; [exact T|].
  unfold resolve. rewrite G, T. reflexivity.
Qed.
Example ex_checked : exists p r i, Forall checked [Initialize (ex_conf 0); UseRuntime empty_conf; AddOn empty_conf (other_conf port_c)] /\
  execs fresh [Initialize (ex_conf 0); UseRuntime empty_conf; AddOn empty_conf (other_conf port_c)] = Done p /\
  p_run p = Some r /\ resolve (r_conf r) port_c = Some i.
Proof.
  do 3 eexists. split; [repeat constructor; vm_compute; reflexivity|]. split; [reflexivity|]. split; [reflexivity|].
  vm_compute. reflexivity.
Qed.

(** The configuration in use only grows: a port that was resolved once is resolved to the same
    identifier for the rest of the process's life, whatever else is called. *)
Theorem C100_grows : forall ls p r p', p_run p = Some r -> execs p ls = Done p' ->
  exists r', p_run p' = Some r' /\ grows (r_conf r) (r_conf r') /\
    forall k i, resolve (r_conf r) k = Some i -> resolve (r_conf r') k = Some i.
Proof.
  assert (One : forall p r l p', p_run p = Some r -> exec p l = Done p' ->
    exists r', p_run p' = Some r' /\ grows (r_conf r) (r_conf r')).
  { intros p r l p' R E.
    assert (I : forall d, instance p d = Done r) by (intros d; unfold instance; rewrite R; reflexivity).
    destruct l as [c|d|d c|t]; cbn [exec] in E.
    - rewrite R in E. injection E as <-. exists r. split; [exact R|]. repeat split; auto.
    - rewrite I in E. cbn [bind] in E. injection E as <-. exists r. split; [reflexivity|]. repeat split; auto.
    - rewrite I in E. cbn [bind] in E. destruct (merge (r_conf r) c) as [c' [e|]] eqn:M; [discriminate|].
      destruct (validate c'); [discriminate|]. injection E as <-. eexists. split; [reflexivity|]. cbn [r_conf].
      destruct (C99_contents _ _ _ M) as (A & B & L). split; [|split; [|exact L]].
      + intros s t H. apply A. auto.
      + intros k d0 H. apply B. auto.
    - pose proof (C98_result_partial (option_map r_conf (p_run p)) t) as Q. rewrite R in E, Q. cbn [option_map] in E, Q.
      destruct (create (Some (r_conf r)) t) as [i c'|e| |]; try discriminate.
      + injection E as <-. eexists. split; [reflexivity|]. cbn [r_conf].
        destruct Q as (c & [= <-] & _ & _ & (_ & _ & N1 & N2) & (A & B & L) & _).
        split; [|split; [|exact L]].
        * intros s u H. rewrite A; [exact H|]. apply service_eqb_neq. congruence.
        * intros k d H. rewrite B; [exact H|]. congruence.
      + injection E as <-. exists r. split; [exact R|]. repeat split; auto. }
  intros ls p r p' R E.
  assert (Many : exists r', p_run p' = Some r' /\ grows (r_conf r) (r_conf r')).
  { revert p r R E. induction ls as [|l ls IH]; intros p r R E; cbn [execs] in E.
    - injection E as <-. exists r. split; [exact R|]. repeat split; auto.
    - destruct (exec p l) as [q| |] eqn:X; try discriminate. cbn [bind] in E.
      destruct (One p r l q R X) as (r1 & R1 & A1 & B1 & L1). destruct (IH q r1 R1 E) as (r2 & R2 & A2 & B2 & L2).
      exists r2. split; [exact R2|]. split; [auto|]. split; [auto|congruence]. }
  destruct Many as (r' & R' & A & B & L). exists r'. split; [exact R'|]. split; [split; auto|].
  intros k i. unfold resolve. destruct (get_inst (r_conf r) k) as [d|] eqn:D; [|discriminate].
  rewrite (B _ _ D). destruct (get_type (r_conf r) (in_service d)) as [t|] eqn:T; [|discriminate].
  rewrite (A _ _ T). auto.
Qed.

(** C100. A process that was given a configuration runs with it, and with the shared-memory binding
    exactly if one of the service types of the configuration uses that. *)
Theorem C100_binding_partial : forall c d p, execs fresh [Initialize c; UseRuntime d] = Done p ->
  exists r, p_run p = Some r /\ r_conf r = c /\
    (r_lola r = true <-> exists s t, get_type c s = Some (TLola t)).
Proof.
  intros c d p E. cbn [execs exec fresh p_run] in E. destruct (validate c); [discriminate|]. cbn [bind] in E.
  unfold instance in E. cbn [p_run p_init] in E. destruct (start c) as [r| |] eqn:S; try discriminate.
  cbn [bind] in E. injection E as <-. exists r. split; [reflexivity|]. split; [exact (start_conf c r S)|].
  assert (B : r_lola r = has_lola c).
  { unfold start in S. destruct (has_lola c); [|injection S as <-; reflexivity].
    destruct (aggregated_users c QQM); try discriminate. cbn [bind] in S.
    destruct (if quality_eqb (c_level c) QB then aggregated_users c QB else Done []); try discriminate.
    injection S as <-. reflexivity. }
  rewrite B. unfold has_lola. rewrite existsb_exists. split.
  - intros ([s t] & I & T). cbn [snd] in T. destruct t as [t|]; [|discriminate]. exists s, t.
    apply in_all_types, I.
  - intros (s & t & G). exists (s, TLola t). split; [apply in_all_types, G|reflexivity].
Qed.
Example ex_binding : exists p r, execs fresh [Initialize (ex_conf 0); UseRuntime empty_conf] = Done p /\
  p_run p = Some r /\ r_lola r = true.
Proof. do 2 eexists. split; [vm_compute; reflexivity|]. split; reflexivity. Qed.

(** The default configuration file is not validated: a process that does not call Initialize runs with
    an ASIL-B instance in a QM process. *)
Theorem C100_default_refuted : exists d p r k i,
  execs fresh [UseRuntime d] = Done p /\ p_run p = Some r /\ validate (r_conf r) <> None /\
  resolve (r_conf r) k = Some i /\ in_asil (i_inst i) = QB /\ c_level (r_conf r) = QQM.
Proof.
  exists (make_conf [(ex_service, ex_type)] [(port_a, mkInst ex_service (BLola (ex_lola 0)) QB port_a)] QQM).
  do 2 eexists. exists port_a. eexists. split; [reflexivity|]. split; [reflexivity|].
  split; [vm_compute; discriminate|]. split; [reflexivity|]. split; reflexivity.
Qed.

(** Once the runtime is in use, Initialize is ignored, whatever it is given. *)
Theorem C100_late_initialize_refuted : forall p r c, p_run p = Some r -> exec p (Initialize c) = Done p.
Proof. intros p r c R. cbn [exec]. rewrite R. reflexivity. Qed.

(** A QM process that received the identifier of an ASIL-B instance as a string ends when it adds a
    configuration that is valid on its own and clashes with nothing. *)
Theorem C100_identifier_then_addon_refuted : exists c t x p r,
  validate c = None /\ validate x = None /\
  execs fresh [Initialize c; UseRuntime empty_conf; CreateIdent t] = Done p /\ p_run p = Some r /\
  disjoint (r_conf r) x /\ execs p [AddOn empty_conf x] = Terminates.
Proof.
  exists (ex_conf 0),
    (i_text (make_ident (mkInst (mkSv (str "/bmw/Brake") 1 0)
        (BLola (mkLi (Some 3) None None None [] [] [] false [] [] false false)) QB (str "app/brake")) (TLola (mkLt 5 [] [] [])))),
    (other_conf port_c). do 2 eexists.
  split; [vm_compute; reflexivity|]. split; [vm_compute; reflexivity|]. split; [vm_compute; reflexivity|].
  split; [reflexivity|]. split; [apply C99_succeeds; vm_compute; reflexivity|]. vm_compute. reflexivity.
Qed.

(** If the first configuration has no service, the runtime of the binding is never created, although an
    add-on configuration brings services that use it. *)
Theorem C100_addon_without_binding_refuted : exists c x p r i,
  validate c = None /\ validate x = None /\
  execs fresh [Initialize c; UseRuntime empty_conf; AddOn empty_conf x] = Done p /\ p_run p = Some r /\
  resolve (r_conf r) port_a = Some i /\ (exists l, in_binding (i_inst i) = BLola l) /\ r_lola r = false.
Proof.
  exists empty_conf, (ex_conf 0). do 3 eexists. split; [vm_compute; reflexivity|]. split; [vm_compute; reflexivity|].
  split; [reflexivity|]. split; [reflexivity|]. split; [vm_compute; reflexivity|].
  split; [eexists; reflexivity|reflexivity].
Qed.

(** * C101: allowed users *)

(** The list of users that the instance [d] gives for the level [q] on one of the two sides *)
Definition gives (d : inst_depl) (q : quality) (us : list N) : Prop :=
  match in_binding d with
  | BLola l => find (quality_text q) (li_consumer l) = Some us \/ find (quality_text q) (li_provider l) = Some us
  | BBlank => False
  end.

(** The aggregated list as a function of the instances in any order, as unordered maps are iterated *)
Lemma loop_spec q l : (forall k d, In (k, d) l -> exists b, in_binding d = BLola b) -> forall us, 
  exists res, allowed_loop l q us = Done res /\
  ((exists k d, In (k, d) l /\ gives d q []) /\ res = [] \/
   (forall k d, In (k, d) l -> ~ gives d q []) /\
   (forall u, In u res <-> In u us \/ exists k d lst, In (k, d) l /\ gives d q lst /\ In u lst)).
Proof.
  induction l as [|[k d] l IH]; intros B us; cbn [allowed_loop].
  - exists us. split; [reflexivity|]. right. split; [intros ? ? []|]. intros u. split; [auto|].
    intros [H|(? & ? & ? & [] & _)]; exact H.
  - destruct (B k d (or_introl eq_refl)) as [b Hb]. rewrite Hb.
    assert (Bl : forall k d, In (k, d) l -> exists b, in_binding d = BLola b) by (intros; eapply B; right; eassumption).
    unfold aggregate.
    destruct (find (quality_text q) (li_consumer b)) as [[|a1 c1]|] eqn:Fc.
    + exists []. split; [reflexivity|]. left. split; [|reflexivity]. exists k, d. split; [left; reflexivity|].
      unfold gives. rewrite Hb. auto.
    + destruct (find (quality_text q) (li_provider b)) as [[|a2 c2]|] eqn:Fp.
      * exists []. split; [reflexivity|]. left. split; [|reflexivity]. exists k, d. split; [left; reflexivity|].
        unfold gives. rewrite Hb. auto.
      * destruct (IH Bl ((a2 :: c2) ++ (a1 :: c1) ++ us)) as (res & E & S). exists res. split; [exact E|].
        destruct S as [[(k1 & d1 & H1 & H2) ->]|[S1 S2]].
        -- left. split; [|reflexivity]. exists k1, d1. split; [right; exact H1|exact H2].
        -- right. split.
           ++ intros k1 d1 [[= <- <-]|H]; [|eauto]. unfold gives. rewrite Hb, Fc, Fp. intros [X|X]; discriminate.
           ++ intros u. rewrite S2, !in_app_iff. split.
              ** intros [[H|[H|H]]|(k1 & d1 & ls & H1 & H2 & H3)]; [| |auto|].
                 --- right. exists k, d, (a2 :: c2). split; [left; reflexivity|]. split; [|exact H]. unfold gives. rewrite Hb. auto.
                 --- right. exists k, d, (a1 :: c1). split; [left; reflexivity|]. split; [|exact H]. unfold gives. rewrite Hb. auto.
                 --- right. exists k1, d1, ls. split; [right; exact H1|auto].
              ** intros [H|(k1 & d1 & ls & [[= <- <-]|H1] & H2 & H3)]; [auto| |eauto 8].
                 unfold gives in H2. rewrite Hb, Fc, Fp in H2. destruct H2 as [[= <-]|[= <-]]; auto.
      * destruct (IH Bl ((a1 :: c1) ++ us)) as (res & E & S). exists res. split; [exact E|].
        destruct S as [[(k1 & d1 & H1 & H2) ->]|[S1 S2]].
        -- left. split; [|reflexivity]. exists k1, d1. split; [right; exact H1|exact H2].
        -- right. split.
           ++ intros k1 d1 [[= <- <-]|H]; [|eauto]. unfold gives. rewrite Hb, Fc, Fp. intros [X|X]; discriminate.
           ++ intros u. rewrite S2, !in_app_iff. split.
              ** intros [[H|H]|(k1 & d1 & ls & H1 & H2 & H3)]; [|auto|].
                 --- right. exists k, d, (a1 :: c1). split; [left; reflexivity|]. split; [|exact H]. unfold gives. rewrite Hb. auto.
                 --- right. exists k1, d1, ls. split; [right; exact H1|auto].
              ** intros [H|(k1 & d1 & ls & [[= <- <-]|H1] & H2 & H3)]; [auto| |eauto 8].
                 unfold gives in H2. rewrite Hb, Fc, Fp in H2. destruct H2 as [[= <-]|X]; [auto|discriminate].
    + destruct (find (quality_text q) (li_provider b)) as [[|a2 c2]|] eqn:Fp.
      * exists []. split; [reflexivity|]. left. split; [|reflexivity]. exists k, d. split; [left; reflexivity|].
        unfold gives. rewrite Hb. auto.
      * destruct (IH Bl ((a2 :: c2) ++ us)) as (res & E & S). exists res. split; [exact E|].
        destruct S as [[(k1 & d1 & H1 & H2) ->]|[S1 S2]].
        -- left. split; [|reflexivity]. exists k1, d1. split; [right; exact H1|exact H2].
        -- right. split.
           ++ intros k1 d1 [[= <- <-]|H]; [|eauto]. unfold gives. rewrite Hb, Fc, Fp. intros [X|X]; discriminate.
           ++ intros u. rewrite S2, !in_app_iff. split.
              ** intros [[H|H]|(k1 & d1 & ls & H1 & H2 & H3)]; [|auto|].
                 --- right. exists k, d, (a2 :: c2). split; [left; reflexivity|]. split; [|exact H]. unfold gives. rewrite Hb. auto.
                 --- right. exists k1, d1, ls. split; [right; exact H1|auto].
              ** intros [H|(k1 & d1 & ls & [[= <- <-]|H1] & H2 & H3)]; [auto| |eauto 8].
                 unfold gives in H2. rewrite Hb, Fc, Fp in H2. destruct H2 as [X|[= <-]]; [discriminate|auto].
      * destruct (IH Bl us) as (res & E & S). exists res. split; [exact E|].
        destruct S as [[(k1 & d1 & H1 & H2) ->]|[S1 S2]].
        -- left. split; [|reflexivity]. exists k1, d1. split; [right; exact H1|exact H2].
        -- right. split.
           ++ intros k1 d1 [[= <- <-]|H]; [|eauto]. unfold gives. rewrite Hb, Fc, Fp. intros [X|X]; discriminate.
           ++ intros u. rewrite S2. split.
              ** intros [H|(k1 & d1 & ls & H1 & H2 & H3)]; [auto|]. right. exists k1, d1, ls. split; [right; exact H1|auto].
              ** intros [H|(k1 & d1 & ls & [[= <- <-]|H1] & H2 & H3)]; [auto| |eauto 8].
                 unfold gives in H2. rewrite Hb, Fc, Fp in H2. destruct H2; discriminate.
Qed.

(** The users computed for a valid configuration, in whatever order its instances are visited: none,
    which means no restriction, if some instance has an empty list for the level, and otherwise those in
    some list of some instance. *)
Theorem C101_aggregated_partial : forall c q visit, validate c = None -> Permutation visit (all_insts c) ->
  exists us, allowed_loop visit q [] = Done us /\
  ((exists k d, get_inst c k = Some d /\ gives d q []) -> us = []) /\
  ((forall k d, get_inst c k = Some d -> ~ gives d q []) ->
   forall u, In u us <-> exists k d lst, get_inst c k = Some d /\ gives d q lst /\ In u lst).
Proof.
  intros c q visit V P.
  assert (M : forall k d, In (k, d) visit <-> get_inst c k = Some d).
  { intros k d. rewrite <- in_all_insts. split; apply Permutation_in; [exact P|apply Permutation_sym, P]. }
  assert (B : forall k d, In (k, d) visit -> exists b, in_binding d = BLola b).
  { intros k d H. apply M in H. destruct (proj1 (C100_validate c) V k d H) as [(l & _ & E & _) _]. eauto. }
  destruct (loop_spec q visit B []) as (us & E & S). exists us. split; [exact E|]. split.
  - intros (k & d & G & X). destruct S as [[_ S]|[S _]]; [exact S|]. apply M in G. destruct (S k d G X).
  - intros N. destruct S as [[(k & d & G & X) _]|[_ S]]; [apply M in G; destruct (N k d G X)|].
    intros u. rewrite S. split.
    + intros [[]|(k & d & lst & H1 & H2 & H3)]. exists k, d, lst. rewrite <- M. auto.
    + intros (k & d & lst & H1 & H2 & H3). right. exists k, d, lst. rewrite M. auto.
Qed.
Example ex_users : aggregated_users (ex_conf 0) QQM = Done [1000; 1001; 1000; 1001] /\ aggregated_users (ex_conf 0) QB = Done [].
Proof. split; vm_compute; reflexivity. Qed.

(** The list is computed once: users that an add-on configuration allows are missing from it. *)
Theorem C101_addon_refuted : exists c x p r k d u,
  validate c = None /\ validate x = None /\
  execs fresh [Initialize c; UseRuntime empty_conf; AddOn empty_conf x] = Done p /\ p_run p = Some r /\
  get_inst (r_conf r) k = Some d /\ gives d QQM [u] /\ ~ In u (r_users_qm r) /\ r_users_qm r <> [].
Proof.
  exists (ex_conf 0),
    (make_conf [(other_service, TLola (mkLt 99 [] [] []))] [(port_c, other_inst port_c [(quality_text QQM, [2000])])] QQM).
  do 2 eexists. exists port_c. eexists. exists 2000.
  split; [vm_compute; reflexivity|]. split; [vm_compute; reflexivity|]. split; [reflexivity|]. split; [reflexivity|].
  split; [vm_compute; reflexivity|]. split; [left; vm_compute; reflexivity|].
  split; [vm_compute; intuition discriminate|vm_compute; discriminate].
Qed.

(** An instance without a list, whose memory everybody may use, does not widen the list. *)
Theorem C101_unlisted_refuted : exists c p r k d,
  validate c = None /\ execs fresh [Initialize c; UseRuntime empty_conf] = Done p /\ p_run p = Some r /\
  get_inst (r_conf r) k = Some d /\ (forall lst, ~ gives d QQM lst) /\
  (match in_binding d with BLola l => li_strict l = false | BBlank => False end) /\ r_users_qm r = [1000].
Proof.
  exists (make_conf [(other_service, TLola (mkLt 99 [] [] []))]
      [(port_a, other_inst port_a [(quality_text QQM, [1000])]); (port_b, other_inst port_b [])] QQM).
  do 2 eexists. exists port_b. eexists.
  split; [vm_compute; reflexivity|]. split; [reflexivity|]. split; [reflexivity|]. split; [vm_compute; reflexivity|].
  split; [intros lst [H|H]; vm_compute in H; discriminate|]. split; vm_compute; reflexivity.
Qed.

(** The lists have no effect: a process accepts messages of users that no instance of it lists. *)
Theorem C101_messages_refuted : exists c p r u,
  validate c = None /\ execs fresh [Initialize c; UseRuntime empty_conf] = Done p /\ p_run p = Some r /\
  r_users_qm r <> [] /\ ~ In u (r_users_qm r) /\ messaging_admits r QQM u = true.
Proof.
  exists (ex_conf 0). do 2 eexists. exists 4242. split; [vm_compute; reflexivity|]. split; [reflexivity|].
  split; [reflexivity|]. split; [vm_compute; discriminate|]. split; [vm_compute; intuition discriminate|reflexivity].
Qed.

Print Assumptions C99_succeeds.
Print Assumptions C99_contents.
Print Assumptions C99_failed_partial.
Print Assumptions C99_failed_refuted.
Print Assumptions C100_validate.
Print Assumptions C100_resolves_partial.
Print Assumptions C100_grows.
Print Assumptions C100_binding_partial.
Print Assumptions C100_default_refuted.
Print Assumptions C100_late_initialize_refuted.
Print Assumptions C100_identifier_then_addon_refuted.
Print Assumptions C100_addon_without_binding_refuted.
Print Assumptions C101_aggregated_partial.
Print Assumptions C101_addon_refuted.
Print Assumptions C101_unlisted_refuted.
Print Assumptions C101_messages_refuted.
