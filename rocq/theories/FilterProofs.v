(** Lemmas about the trace filter: what adding and parsing switch on *)
From Coq Require Import String Permutation.
From Verif Require Import Base NamesModel DeplModel ConfModel DeplProofs ConfProps FilterModel FilterSpec.
Open Scope N_scope.

Lemma kind_eqb_eq a b : kind_eqb a b = true <-> a = b.
Proof. destruct a, b; cbn; split; congruence. Qed.
Lemma element_eqb_eq a b : element_eqb a b = true <-> a = b.
Proof.
  destruct a as [s e k], b as [s' e' k']. unfold element_eqb. cbn.
  rewrite !Bool.andb_true_iff, !name_eqb_eq, kind_eqb_eq. split; [intros (-> & -> & ->)|intros H; injection H as -> -> ->]; auto.
Qed.
Lemma element_eqb_refl a : element_eqb a a = true.
Proof. apply element_eqb_eq; reflexivity. Qed.
Lemma element_eqb_neq a b : element_eqb a b = false <-> a <> b.
Proof. rewrite <- element_eqb_eq. destruct (element_eqb a b); split; congruence. Qed.
Lemma key_eqb_eq a b : key_eqb a b = true <-> a = b.
Proof.
  destruct a as [a n], b as [b m]. unfold key_eqb. cbn. rewrite Bool.andb_true_iff, element_eqb_eq, N.eqb_eq.
  split; [intros [-> ->]|intros H; injection H as -> ->]; auto.
Qed.
Lemma key_eqb_refl a : key_eqb a a = true.
Proof. apply key_eqb_eq; reflexivity. Qed.
Lemma key_eqb_neq a b : key_eqb a b = false <-> a <> b.
Proof. rewrite <- key_eqb_eq. destruct (key_eqb a b); split; congruence. Qed.

Lemma mem_in x l : mem x l = true <-> In x l.
Proof.
  unfold mem. rewrite existsb_exists. split.
  - intros [y [H E]]. apply name_eqb_eq in E. subst. exact H.
  - intros H. exists x. split; [exact H|apply name_eqb_refl].
Qed.
Lemma mem_not_in x l : mem x l = false <-> ~ In x l.
Proof. rewrite <- mem_in. destruct (mem x l); split; congruence. Qed.
Lemma in_insert x y l : In x (insert y l) <-> In x l \/ x = y.
Proof.
  unfold insert. destruct (mem y l) eqn:E.
  - apply mem_in in E. intuition congruence.
  - cbn. intuition congruence.
Qed.
Lemma insert_nodup y l : NoDup l -> NoDup (insert y l).
Proof.
  unfold insert. destruct (mem y l) eqn:E; intros H; [exact H|]. apply mem_not_in in E. constructor; auto.
Qed.

(** The trace points of one map are told apart by their number *)
Lemma code_inj p q f : map_of p f = map_of p f -> kind_of p = kind_of q ->
  (match p, q with SkEvent _, SkEvent _ | SkField _, SkField _ | PxEvent _, PxEvent _ | PxField _, PxField _ => True
   | _, _ => False end) -> code p = code q -> p = q.
Proof.
  intros _ _ H E. destruct p as [p|p|p|p], q as [q|q|q|q]; try contradiction; destruct p, q; try reflexivity; discriminate E.
Qed.
Lemma code_pos p : code p <> 0 <->
  match p with SkEvent SeInvalid | SkField SfInvalid | PxEvent PeInvalid | PxField PfInvalid => False | _ => True end.
Proof. destruct p as [p|p|p|p]; destruct p; cbn; split; (congruence || auto || contradiction). Qed.

(** * Maps *)

Definition holds (m : pmap) (k : key) (i : name) : Prop := exists l, find_key k m = Some l /\ In i l.

Lemma holds_insert k i m k' i' : holds (insert_point k i m) k' i' <-> holds m k' i' \/ (k' = k /\ i' = i).
Proof.
  unfold holds. induction m as [|[q v] m IH]; cbn [insert_point find_key].
  - destruct (key_eqb k' k) eqn:E.
    + apply key_eqb_eq in E. subst. split.
      * intros [l [H I]]. injection H as <-. destruct I as [<-|[]]. auto.
      * intros [[l [H I]]|[_ ->]]; [discriminate|]. eexists. split; [reflexivity|left; reflexivity].
    + apply key_eqb_neq in E. split; [intros [l [H I]]; discriminate|]. intros [[l [H I]]|[H _]]; [discriminate|contradiction].
  - destruct (key_eqb k q) eqn:Eq.
    + apply key_eqb_eq in Eq. subst q. cbn [find_key]. destruct (key_eqb k' k) eqn:E.
      * apply key_eqb_eq in E. subst. split.
        -- intros [l [H I]]. injection H as <-. apply in_insert in I. destruct I as [I|I]; [|auto].
           left. eexists. split; [reflexivity|exact I].
        -- intros [[l [H I]]|[_ ->]]; eexists; (split; [reflexivity|]); apply in_insert; [|auto].
           injection H as <-. auto.
      * apply key_eqb_neq in E. split; [auto|]. intros [H|[H _]]; [exact H|contradiction].
    + cbn [find_key]. destruct (key_eqb k' q) eqn:E; [|exact IH].
      apply key_eqb_eq in E. subst q. split; [auto|]. intros [H|[-> _]]; [exact H|].
      rewrite key_eqb_refl in Eq. discriminate.
Qed.

(** No key is twice in a map, no instance twice in the set of a key *)
Definition neat (m : pmap) : Prop := NoDup (map fst m) /\ forall k l, In (k, l) m -> NoDup l /\ l <> [].
Lemma insert_point_keys k i m q : In q (map fst (insert_point k i m)) <-> In q (map fst m) \/ q = k.
Proof.
  induction m as [|[k' v] m IH]; cbn [insert_point map fst In]; [intuition|].
  destruct (key_eqb k k') eqn:E; cbn [map fst In].
  - apply key_eqb_eq in E. subst k'. intuition.
  - rewrite IH. intuition.
Qed.
Lemma neat_insert k i m : neat m -> neat (insert_point k i m).
Proof.
  intros [D S]. split.
  - clear S. induction m as [|[k' v] m IH]; cbn [insert_point map fst]; [constructor; [intros []|constructor]|].
    cbn [map fst] in D. inversion D as [|? ? D1 D2]; subst.
    destruct (key_eqb k k') eqn:E; cbn [map fst]; constructor; auto.
    rewrite insert_point_keys. intros [H|H]; [contradiction|]. subst k'. rewrite key_eqb_refl in E. discriminate.
  - clear D. induction m as [|[k' v] m IH]; cbn [insert_point].
    + intros q l [H|[]]. injection H as <- <-. split; [constructor; [intros []|constructor]|discriminate].
    + destruct (key_eqb k k') eqn:E; intros q l [H|H].
      * injection H as <- <-. split; [apply insert_nodup, (S k' v); left; reflexivity|].
        intros Q. assert (I : In i (insert i v)) by (apply in_insert; auto). rewrite Q in I. destruct I.
      * apply (S q l). right; exact H.
      * injection H as <- <-. apply (S k' v). left; reflexivity.
      * revert H. apply IH. intros q' l' H'. apply (S q' l'). right; exact H'.
Qed.
Lemma find_key_in m k l : NoDup (map fst m) -> (find_key k m = Some l <-> In (k, l) m).
Proof.
  induction m as [|[q v] m IH]; cbn [find_key In map fst]; intros D; [split; [discriminate|intros []]|].
  inversion D as [|? ? D1 D2]; subst. destruct (key_eqb k q) eqn:E.
  - apply key_eqb_eq in E. subst q. split; [intros H; injection H as ->; auto|]. intros [H|H]; [injection H as ->; reflexivity|].
    exfalso. apply D1. change k with (fst (k, l)). apply in_map. exact H.
  - apply key_eqb_neq in E. rewrite (IH D2). split; [auto|]. intros [H|H]; [injection H as -> _; contradiction|exact H].
Qed.

(** * What is switched on *)

Definition key_of (s e : name) (p : point) : key := (mkEl s e (kind_of p), code p).
Definition on (f : filter) (s e i : name) (p : point) : Prop :=
  hashable (key_of s e p) = true /\ holds (map_of p f) (key_of s e p) i.

Lemma on_enabled f s e i p : is_enabled f s e i p = Done true <-> on f s e i p.
Proof.
  unfold is_enabled, on, holds. fold (key_of s e p). destruct (hashable (key_of s e p)) eqn:H.
  - destruct (find_key (key_of s e p) (map_of p f)) as [l|]; split.
    + intros E. injection E as E. apply mem_in in E. eauto.
    + intros [_ [l' [E I]]]. injection E as <-. apply mem_in in I. rewrite I. reflexivity.
    + discriminate.
    + intros [_ [l' [E I]]]. discriminate.
  - split; [discriminate|intros [E _]; discriminate].
Qed.

Definition who := name -> name -> name -> point -> Prop.
(** [g] switches on exactly what [R] says, when it completes, and keeps the maps neat *)
Definition tidy (f : filter) : Prop := forall p, neat (map_of p f) /\
  forall k, In k (map fst (map_of p f)) -> e_kind (fst k) = kind_of p /\ hashable k = true.
Definition adds (g : filter -> out filter) (R : who) : Prop :=
  forall f f', g f = Done f' -> (tidy f -> tidy f') /\ forall s e i p, on f' s e i p <-> on f s e i p \/ R s e i p.

Lemma bind_done {A B} (x : out A) (f : A -> out B) b : (x <- x ;; f x) = Done b -> exists a, x = Done a /\ f a = Done b.
Proof. destruct x; cbn; intros H; try discriminate. eauto. Qed.

Lemma adds_none (g : filter -> out filter) : (forall f f', g f = Done f' -> f' = f) -> adds g (fun _ _ _ _ => False).
Proof. intros H f f' E. apply H in E. subst. split; [auto|]. intros. tauto. Qed.
Lemma adds_ext g (R R' : who) : adds g R -> (forall s e i p, R s e i p <-> R' s e i p) -> adds g R'.
Proof. intros H X f f' E. destruct (H f f' E) as [K P]. split; [exact K|]. intros. rewrite P, X. tauto. Qed.
Lemma adds_then g h (R R' : who) : adds g R -> adds h R' ->
  adds (fun f => f1 <- g f ;; h f1) (fun s e i p => R s e i p \/ R' s e i p).
Proof.
  intros G H f f' E. apply bind_done in E. destruct E as [f1 [E1 E2]].
  destruct (G _ _ E1) as [K1 P1], (H _ _ E2) as [K2 P2]. split; [auto|]. intros. rewrite P2, P1. tauto.
Qed.
Lemma adds_loop {A} (g : A -> filter -> out filter) (R : A -> who) l : (forall a, In a l -> adds (g a) (R a)) ->
  adds (loop g l) (fun s e i p => exists a, In a l /\ R a s e i p).
Proof.
  induction l as [|a l IH]; intros H.
  - eapply adds_ext; [apply adds_none; intros f f' E; injection E as ->; reflexivity|].
    cbn. intros. split; [tauto|intros [a [[] _]]].
  - eapply adds_ext; [exact (adds_then (g a) (loop g l) _ _ (H a (or_introl eq_refl)) (IH (fun b Hb => H b (or_intror Hb))))|].
    intros. split.
    + intros [X|[b [I X]]]; [exists a|exists b]; cbn; auto.
    + intros [b [[<-|I] X]]; eauto.
Qed.

Lemma adds_point s e i p : adds (add_point s e i p) (fun s' e' i' p' => s' = cut s /\ e' = cut e /\ i' = i /\ p' = p).
Proof.
  intros f f' E. unfold add_point in E. destruct (code p =? 0) eqn:C; [discriminate|].
  fold (key_of (cut s) (cut e) p) in E. destruct (hashable (key_of (cut s) (cut e) p)) eqn:H; [|discriminate].
  injection E as <-. split.
  - intros T q. destruct (T q) as [T1 T2]. destruct (T p) as [T3 T4].
    assert (X : map_of q (set_map p (insert_point (key_of (cut s) (cut e) p) i (map_of p f)) f) =
                  insert_point (key_of (cut s) (cut e) p) i (map_of q f) /\ kind_of q = kind_of p
               \/ map_of q (set_map p (insert_point (key_of (cut s) (cut e) p) i (map_of p f)) f) = map_of q f)
      by (destruct p, q; cbn; auto).
    destruct X as [[-> K]| ->]; [|auto]. split; [apply neat_insert, T1|].
    intros k I. apply insert_point_keys in I. destruct I as [I| ->]; [auto|]. split; [cbn; auto|exact H].
  - intros s' e' i' p'. unfold on.
    assert (Q : holds (map_of p' (set_map p (insert_point (key_of (cut s) (cut e) p) i (map_of p f)) f)) (key_of s' e' p') i' <->
      holds (map_of p' f) (key_of s' e' p') i' \/ (s' = cut s /\ e' = cut e /\ i' = i /\ p' = p)).
    { assert (X : map_of p' (set_map p (insert_point (key_of (cut s) (cut e) p) i (map_of p f)) f) =
                  insert_point (key_of (cut s) (cut e) p) i (map_of p' f) /\ (match p', p with
                    SkEvent _, SkEvent _ | SkField _, SkField _ | PxEvent _, PxEvent _ | PxField _, PxField _ => True
                    | _, _ => False end) /\ kind_of p' = kind_of p
               \/ map_of p' (set_map p (insert_point (key_of (cut s) (cut e) p) i (map_of p f)) f) = map_of p' f /\ p' <> p).
      { destruct p, p'; cbn; try (left; repeat split; reflexivity); right; split; (reflexivity || congruence). }
      destruct X as [(-> & M & Kd)|[-> N]].
      - rewrite holds_insert. unfold key_of. split.
        + intros [X|[X Y]]; [auto|]. injection X as Xs Xe _ Xc. right. repeat split; auto.
          exact (code_inj p' p f eq_refl Kd M Xc).
        + intros [X|(-> & -> & -> & ->)]; auto.
      - split; [auto|]. intros [X|(_ & _ & _ & X)]; [exact X|contradiction]. }
    rewrite Q. split.
    + intros [A [B|B]]; auto.
    + intros [[A B]|B]; [auto|]. split; [|auto]. destruct B as (-> & -> & _ & ->). exact H.
Qed.

Lemma is_set_true o k : is_set o k = Done true <-> find k o = Some (JBool true).
Proof. unfold is_set. destruct (find k o) as [[| | | | |]|]; split; intros H; try discriminate; injection H as ->; reflexivity. Qed.

Lemma adds_if o s e i x : adds (add_if o s e i x)
  (fun s' e' i' p' => find (fst x) o = Some (JBool true) /\ s' = cut s /\ e' = cut e /\ i' = i /\ p' = snd x).
Proof.
  intros f f' E. unfold add_if in E. apply bind_done in E. destruct E as [b [B E]]. destruct b.
  - apply is_set_true in B. destruct (adds_point _ _ _ _ _ _ E) as [K P]. split; [exact K|]. intros. rewrite P. tauto.
  - injection E as <-. split; [auto|]. intros. split; [auto|]. intros [X|[X _]]; [exact X|].
    apply is_set_true in X. congruence.
Qed.
Lemma adds_warn o k : adds (warn o k) (fun _ _ _ _ => False).
Proof. apply adds_none. intros f f' E. apply bind_done in E. destruct E as [b [_ E]]. injection E as ->. reflexivity. Qed.
Lemma adds_warns o l : adds (loop (warn o) l) (fun _ _ _ _ => False).
Proof.
  eapply adds_ext; [apply (adds_loop (warn o) (fun _ _ _ _ _ => False)); intros; apply adds_warn|].
  intros. split; [intros [a [_ []]]|intros []].
Qed.

Local Arguments str : simpl never.
Local Opaque str.

Ltac pick := cbn [In]; repeat (first [left; reflexivity|right]).
Ltac entry S := match type of S with find ?k _ = _ => match goal with |- context [?p = snd _] =>
  exists (k, p); split; [pick; fail|cbn [fst snd]; auto] end end.

Lemma table_ex (P : name * point -> Prop) x l : (exists a, In a (x :: l) /\ P a) <-> P x \/ exists a, In a l /\ P a.
Proof. split; [intros [a [[<-|I] X]]; eauto|intros [X|[a [I X]]]; [exists x|exists a]; cbn; auto]. Qed.
Lemma table_nil (P : name * point -> Prop) : (exists a, In a [] /\ P a) <-> False.
Proof. split; [intros [a [[] _]]|intros []]. Qed.

Lemma event_tables (o : object) (s e i s' e' i' : name) (p' : point) :
  ((exists x, In x px_event_table /\ find (fst x) o = Some (JBool true) /\ s' = cut s /\ e' = cut e /\ i' = i /\ p' = snd x) \/
   (exists x, In x sk_event_table /\ find (fst x) o = Some (JBool true) /\ s' = cut s /\ e' = cut e /\ i' = i /\ p' = snd x)) <->
  kind_of p' = KEvent /\ switched_on o p' /\ s' = cut s /\ e' = cut e /\ i' = i.
Proof.
  unfold px_event_table, sk_event_table, switched_on. split.
  - rewrite !table_ex, !table_nil. cbn [fst snd]. intros H.
    repeat (destruct H as [H|H]; [first [contradiction|destruct H as (H & -> & -> & -> & ->); cbn [kind_of setting]; auto|idtac]|]); try contradiction.
    all: repeat (destruct H as [H|H]; [destruct H as (H & -> & -> & -> & ->); cbn [kind_of setting]; auto|]); contradiction.
  - intros (K & S & -> & -> & ->). destruct p' as [p|p|p|p]; try discriminate K; destruct p; cbn [setting] in S; try contradiction;
      first [left; entry S; fail|right; entry S; fail|idtac].
Qed.

Lemma adds_event_inst tr o s e i : adds (event_inst tr o s e i)
  (fun s' e' i' p' => is_traced tr (mkEl s e KEvent) i = Done true /\
     kind_of p' = KEvent /\ switched_on o p' /\ s' = cut s /\ e' = cut e /\ i' = i).
Proof.
  intros f f' E. unfold event_inst in E. apply bind_done in E. destruct E as [b [B E]]. rewrite B. destruct b.
  - assert (A : adds (fun f => f1 <- loop (add_if o s e i) px_event_table f ;; f2 <- loop (add_if o s e i) sk_event_table f1 ;;
      loop (warn o) not_implemented f2)
      (fun s' e' i' p' => kind_of p' = KEvent /\ switched_on o p' /\ s' = cut s /\ e' = cut e /\ i' = i)).
    { eapply adds_ext.
      - apply (adds_then (loop (add_if o s e i) px_event_table) (fun f1 => f2 <- loop (add_if o s e i) sk_event_table f1 ;;
          loop (warn o) not_implemented f2)).
        + apply adds_loop. intros. apply adds_if.
        + apply (adds_then (loop (add_if o s e i) sk_event_table) (loop (warn o) not_implemented));
            [apply adds_loop; intros; apply adds_if|apply adds_warns].
      - intros. cbv beta. rewrite <- event_tables. tauto. }
    destruct (A _ _ E) as [K P]. split; [exact K|]. intros. rewrite P. tauto.
  - injection E as <-. split; [auto|]. intros. split; [auto|]. intros [X|[X _]]; [exact X|discriminate].
Qed.

Lemma adds_sub o sub s e i t : adds (add_sub o sub s e i t)
  (fun s' e' i' p' => exists b, find sub o = Some (JObj b) /\
     exists x, In x t /\ find (fst x) b = Some (JBool true) /\ s' = cut s /\ e' = cut e /\ i' = i /\ p' = snd x).
Proof.
  intros f f' E. unfold add_sub in E. destruct (find sub o) as [j|].
  - apply bind_done in E. destruct E as [b [B E]]. destruct j; try discriminate. injection B as ->.
    destruct (adds_loop (add_if b s e i) _ t (fun a _ => adds_if b s e i a) _ _ E) as [K P]. split; [exact K|].
    intros. rewrite P. split; [intros [X|X]; [auto|right; exists b; auto]|].
    intros [X|[b' [X Y]]]; [auto|]. injection X as <-. auto.
  - injection E as <-. split; [auto|]. intros. split; [auto|]. intros [X|[b [X _]]]; [exact X|discriminate].
Qed.
Lemma adds_warn_sub o sub : adds (warn_sub o sub) (fun _ _ _ _ => False).
Proof.
  intros f f' E. unfold warn_sub in E. destruct (find sub o) as [j|].
  - apply bind_done in E. destruct E as [b [B E]]. exact (adds_warns b _ f f' E).
  - injection E as <-. split; [auto|]. intros. tauto.
Qed.

Definition from_table (o : object) (sub : name) (t : list (name * point)) (p : point) : Prop :=
  exists b, find sub o = Some (JObj b) /\ exists x, In x t /\ find (fst x) b = Some (JBool true) /\ p = snd x.
Ltac sub_entry S := let b := fresh in let A := fresh in let B := fresh in
  destruct S as (b & A & B); exists b; split; [exact A|];
  match type of B with find ?k _ = _ => match goal with |- context [?p = snd _] =>
    exists (k, p); split; [pick; fail|cbn [fst snd]; auto] end end.
Lemma field_tables (o : object) (p : point) :
  (from_table o (str "notifier") px_notifier_table p \/ from_table o (str "notifier") sk_notifier_table p \/
   from_table o (str "getter") px_getter_table p \/ from_table o (str "getter") sk_getter_table p \/
   from_table o (str "setter") px_setter_table p \/ from_table o (str "setter") sk_setter_table p) <->
  kind_of p = KField /\ switched_on o p.
Proof.
  unfold from_table, px_notifier_table, sk_notifier_table, px_getter_table, sk_getter_table, px_setter_table, sk_setter_table, switched_on. split.
  - intros H. repeat (destruct H as [H|H]).
    all: destruct H as [b [A H]]; rewrite ?table_ex, ?table_nil in H; cbn [fst snd] in H.
    all: repeat (destruct H as [H|H]; [destruct H as [H ->]; cbn [kind_of setting]; split; [reflexivity|exists b; auto]|]); contradiction.
  - intros (K & S). destruct p as [p|p|p|p]; try discriminate K; destruct p; cbn [setting] in S; try contradiction;
    first [left; sub_entry S; fail|right; left; sub_entry S; fail|right; right; left; sub_entry S; fail
      |right; right; right; left; sub_entry S; fail|right; right; right; right; left; sub_entry S; fail
      |right; right; right; right; right; sub_entry S; fail].
Qed.

Lemma adds_field_inst tr o s e i : adds (field_inst tr o s e i)
  (fun s' e' i' p' => is_traced tr (mkEl s e KField) i = Done true /\
     kind_of p' = KField /\ switched_on o p' /\ s' = cut s /\ e' = cut e /\ i' = i).
Proof.
  intros f f' E. unfold field_inst in E. apply bind_done in E. destruct E as [b [B E]]. rewrite B. destruct b.
  - apply bind_done in E; destruct E as [g [H E]]; apply adds_sub in H; destruct H as [T0 H].
    apply bind_done in E; destruct E as [g1 [H1 E]]; apply adds_sub in H1; destruct H1 as [T1 H1].
    apply bind_done in E; destruct E as [g2 [H2 E]]; apply adds_sub in H2; destruct H2 as [T2 H2].
    apply bind_done in E; destruct E as [g3 [H3 E]]; apply adds_sub in H3; destruct H3 as [T3 H3].
    apply bind_done in E; destruct E as [g4 [H4 E]]; apply adds_sub in H4; destruct H4 as [T4 H4].
    apply bind_done in E; destruct E as [g5 [H5 E]]; apply adds_sub in H5; destruct H5 as [T5 H5].
    apply adds_warn_sub in E. destruct E as [T6 E]. split; [tauto|].
    intros s' e' i' p'. rewrite E, H5, H4, H3, H2, H1, H. pose proof (field_tables o p') as F. unfold from_table in F.
    assert (X : forall sub t, (exists b, find sub o = Some (JObj b) /\
       (exists x, In x t /\ find (fst x) b = Some (JBool true) /\ s' = cut s /\ e' = cut e /\ i' = i /\ p' = snd x)) <->
       (exists b, find sub o = Some (JObj b) /\ (exists x, In x t /\ find (fst x) b = Some (JBool true) /\ p' = snd x)) /\
       s' = cut s /\ e' = cut e /\ i' = i).
    { intros sub t. split.
      - intros (b & Q & x & Q1 & Q2 & Q3 & Q4 & Q5 & Q6). split; [exists b; split; [exact Q|exists x; auto 10]|auto 10].
      - intros ((b & Q & x & Q1 & Q2 & Q3) & Q4 & Q5 & Q6). exists b. split; [exact Q|]. exists x. auto 10. }
    rewrite !X. clear - F. tauto.
  - injection E as <-. split; [auto|]. intros. split; [auto|]. intros [X|[X _]]; [exact X|discriminate].
Qed.

Definition el_who (tr : traced) (k : kind) (names insts : list name) (s : name) (j : json) : who :=
  fun s' e' i' p' => exists e, s' = cut s /\ e' = cut e /\ In e names /\ In i' insts /\
    is_traced tr (mkEl s e k) i' = Done true /\ kind_of p' = k /\ entry_asks j e p'.

Lemma adds_element tr k names insts s j : adds
  (match k with KEvent => parse_event | KField => parse_field end tr names insts s j) (el_who tr k names insts s j).
Proof.
  assert (G : forall inst : object -> name -> name -> filter -> out filter,
    (forall o e i, adds (inst o e i) (fun s' e' i' p' => is_traced tr (mkEl s e k) i = Done true /\
       kind_of p' = k /\ switched_on o p' /\ s' = cut s /\ e' = cut e /\ i' = i)) ->
    adds (fun f => o <- as_obj j ;; match find (str "shortname") o with None => Done f | Some v =>
      e <- as_str v ;; if mem e names then loop (inst o e) insts f else Done f end) (el_who tr k names insts s j)).
  { intros inst A f f' E. apply bind_done in E. destruct E as [o [O E]]. destruct j; try discriminate. injection O as ->.
    destruct (find (str "shortname") o) as [v|] eqn:Fv.
    - apply bind_done in E. destruct E as [e [V E]]. destruct v; try discriminate. injection V as ->.
      destruct (mem e names) eqn:M.
      + apply mem_in in M. destruct (adds_loop (inst o e) _ insts (fun i _ => A o e i) _ _ E) as [K P]. split; [exact K|].
        intros s' e' i' p'. rewrite P. unfold el_who, entry_asks. split.
        * intros [X|(i & I & T & Kp & S & -> & -> & ->)]; [auto|]. right. exists e. repeat (split; [auto|]). exists o. auto.
        * intros [X|(e0 & -> & -> & I & I' & T & Kp & o' & Eo & Fo & S)]; [auto|]. injection Eo as <-.
          rewrite Fv in Fo. injection Fo as <-. right. exists i'. auto 10.
      + apply mem_not_in in M. injection E as <-. split; [auto|]. intros s' e' i' p'. split; [auto|].
        intros [X|(e0 & -> & -> & I & I' & T & Kp & o' & Eo & Fo & S)]; [auto|]. injection Eo as <-.
        rewrite Fv in Fo. injection Fo as <-. contradiction.
    - injection E as <-. split; [auto|]. intros s' e' i' p'. split; [auto|].
      intros [X|(e0 & -> & -> & I & I' & T & Kp & o' & Eo & Fo & S)]; [auto|]. injection Eo as <-. congruence. }
  destruct k; [apply (G (fun o e => event_inst tr o s e))|apply (G (fun o e => field_inst tr o s e))];
    intros o e i; [apply adds_event_inst|apply adds_field_inst].
Qed.

Lemma adds_list k g (R : json -> who) o : (forall j, adds (g j) (R j)) ->
  adds (parse_list k g o) (fun s e i p => exists l j, find k o = Some (JList l) /\ In j l /\ R j s e i p).
Proof.
  intros A f f' E. unfold parse_list in E. destruct (find k o) as [v|].
  - apply bind_done in E. destruct E as [l [L E]]. destruct v; try discriminate. injection L as ->.
    destruct (adds_loop g R l (fun j _ => A j) _ _ E) as [K P]. split; [exact K|]. intros. rewrite P. split.
    + intros [X|(j & I & X)]; [auto|right; eauto].
    + intros [X|(l' & j & Q & I & X)]; [auto|]. injection Q as <-. eauto.
  - injection E as <-. split; [auto|]. intros s' e' i' p'. split; [auto|]. intros [X|(l' & j & Q & _)]; [auto|discriminate].
Qed.

Definition service_who (c : conf) (tr : traced) (j : json) : who := fun s' e' i' p' =>
  exists s svc els el, j = JObj svc /\ find (str "shortname_path") svc = Some (JStr s) /\ In s (type_names c) /\
    find (list_key (kind_of p')) svc = Some (JList els) /\ In el els /\
    el_who tr (kind_of p') (element_names c s (kind_of p')) (instances_of c s) s el s' e' i' p'.
Lemma adds_service c tr j : adds (parse_service c tr j) (service_who c tr j).
Proof.
  intros f f' E. unfold parse_service in E. apply bind_done in E. destruct E as [o [O E]].
  destruct j; try discriminate. injection O as ->. unfold service_who.
  destruct (find (str "shortname_path") o) as [v|] eqn:Fv.
  - apply bind_done in E. destruct E as [s [S E]]. destruct v; try discriminate. injection S as ->.
    destruct (mem s (type_names c)) eqn:M.
    + apply mem_in in M. apply bind_done in E. destruct E as [f1 [E1 E2]].
      destruct (adds_list _ _ _ o (fun j => adds_element tr KEvent (element_names c s KEvent) (instances_of c s) s j) _ _ E1) as [K1 P1].
      destruct (adds_list _ _ _ o (fun j => adds_element tr KField (element_names c s KField) (instances_of c s) s j) _ _ E2) as [K2 P2].
      split; [auto|]. intros s' e' i' p'. rewrite P2, P1. split.
      * intros [[X|(l & j & Q & I & X)]|(l & j & Q & I & X)]; [auto| |]; right; exists s, o, l, j;
          assert (Kp : kind_of p' = KEvent \/ kind_of p' = KField) by (destruct X as (e0 & X); tauto);
          assert (Kq := X); destruct Kq as (e0 & _ & _ & _ & _ & _ & Kq & _); rewrite Kq; cbn [list_key]; auto 6.
      * intros [X|(s0 & svc & els & el & Eo & Fs & I & Fl & Ie & X)]; [auto|]. injection Eo as <-.
        rewrite Fv in Fs. injection Fs as <-. destruct (kind_of p') eqn:Kp; cbn [list_key] in Fl; [left; right|right]; eauto 8.
    + apply mem_not_in in M. injection E as <-. split; [auto|]. intros s' e' i' p'. split; [auto|].
      intros [X|(s0 & svc & els & el & Eo & Fs & I & _)]; [auto|]. injection Eo as <-. congruence.
  - injection E as <-. split; [auto|]. intros s' e' i' p'. split; [auto|].
    intros [X|(s0 & svc & els & el & Eo & Fs & I & _)]; [auto|]. injection Eo as <-. congruence.
Qed.

Lemma empty_tidy : tidy empty.
Proof. intros [p|p|p|p]; split; try (split; [constructor|intros k l []]); intros k []. Qed.

Lemma parse_on c tr file f : parse c tr file = Done f -> tidy f /\ forall s' e' i p, on f s' e' i p <->
  exists s e, s' = cut s /\ e' = cut e /\ asks file s e p /\ In s (type_names c) /\ In e (element_names c s (kind_of p)) /\
    In i (instances_of c s) /\ is_traced tr (mkEl s e (kind_of p)) i = Done true.
Proof.
  intros E. unfold parse in E. apply bind_done in E. destruct E as [o [O E]]. destruct file; try discriminate. injection O as ->.
  destruct (adds_list _ _ _ o (adds_service c tr) _ _ E) as [K P]. split; [exact (K empty_tidy)|].
  intros s' e' i p. rewrite P. unfold service_who, el_who, asks. split.
  - intros [[_ [l [X _]]]|(l & j & F & I & s & svc & els & el & -> & F1 & I1 & F2 & I2 & e & -> & -> & A1 & A2 & A3 & A4 & A5)].
    + destruct p as [p|p|p|p]; discriminate X.
    + exists s, e. repeat (split; [solve [auto]|]). split; [|auto 6]. exists o, l, svc, els, el. auto 8.
  - intros (s & e & -> & -> & (o' & l & svc & els & el & Eo & A1 & A2 & A3 & A4 & A5 & A6) & B1 & B2 & B3 & B4).
    injection Eo as <-. right. exists l, (JObj svc). split; [exact A1|]. split; [exact A2|].
    exists s, svc, els, el. repeat (split; [solve [auto]|]). exists e. auto 8.
Qed.

(** * The traced elements *)

Definition tr_holds (m : traced) (k : element) (i : name) : Prop := exists l, find_el k m = Some l /\ In i l.
Lemma set_traced_holds k i m m' : set_traced k i m = Done m' ->
  forall k' i', tr_holds m' k' i' <-> tr_holds m k' i' \/ (k' = k /\ i' = i).
Proof.
  unfold tr_holds. revert m'. induction m as [|[q v] m IH]; intros m'; cbn [set_traced].
  - intros E. injection E as <-. intros k' i'. cbn [find_el]. destruct (element_eqb k' k) eqn:Q.
    + apply element_eqb_eq in Q. subst. split.
      * intros [l [H I]]. injection H as <-. destruct I as [<-|[]]. auto.
      * intros [[l [H _]]|[_ ->]]; [discriminate|]. eexists. split; [reflexivity|left; reflexivity].
    + apply element_eqb_neq in Q. split; [intros [l [H _]]; discriminate|]. intros [[l [H _]]|[H _]]; [discriminate|contradiction].
  - destruct (element_eqb k q) eqn:Eq.
    + destruct (mem i v) eqn:M; [discriminate|]. intros E. injection E as <-. apply element_eqb_eq in Eq. subst q.
      intros k' i'. cbn [find_el]. destruct (element_eqb k' k) eqn:Q.
      * apply element_eqb_eq in Q. subst. split.
        -- intros [l [H I]]. injection H as <-. destruct I as [<-|I]; [auto|]. left. eauto.
        -- intros [[l [H I]]|[_ ->]]; eexists; (split; [reflexivity|]); cbn; [|auto]. injection H as <-. auto.
      * apply element_eqb_neq in Q. split; [auto|]. intros [H|[H _]]; [exact H|contradiction].
    + intros E. apply bind_done in E. destruct E as [t' [E1 E]]. injection E as <-. intros k' i'. cbn [find_el].
      destruct (element_eqb k' q) eqn:Q; [|apply IH, E1]. apply element_eqb_eq in Q. subst q.
      split; [auto|]. intros [H|[-> _]]; [exact H|]. rewrite element_eqb_refl in Eq. discriminate.
Qed.
Lemma is_traced_true m k i : is_traced m k i = Done true -> tr_holds m k i.
Proof.
  unfold is_traced, tr_holds. destruct (find_el k m) as [l|]; [|discriminate].
  unfold create_specifier. destruct (is_short_name_valid i); [|discriminate].
  intros E. injection E as E. apply mem_in in E. eauto.
Qed.
Lemma is_traced_holds m k i : is_short_name_valid i = true -> tr_holds m k i -> is_traced m k i = Done true.
Proof.
  intros V [l [F I]]. unfold is_traced, create_specifier. rewrite F, V. apply mem_in in I. rewrite I. reflexivity.
Qed.
(** Every element of the list is looked at when the loop completes *)
Lemma loop_done {A B} (g : A -> B -> out B) (P : B -> Prop) (Q : A -> Prop) l b b' :
  loop g l b = Done b' -> (forall a x y, g a x = Done y -> P x -> P y /\ Q a) -> P b -> P b' /\ forall a, In a l -> Q a.
Proof.
  revert b. induction l as [|a l IH]; cbn [loop]; intros b E H Pb.
  - injection E as ->. split; [exact Pb|intros a []].
  - apply bind_done in E. destruct E as [b1 [E1 E2]]. destruct (H a b b1 E1 Pb) as [P1 Q1].
    destruct (IH b1 E2 H P1) as [P2 Q2]. split; [exact P2|]. intros x [<-|I]; auto.
Qed.

Definition tr_adds {A} (g : A -> traced -> out traced) (R : A -> element -> name -> Prop) : Prop :=
  forall a m m', g a m = Done m' -> forall k i, tr_holds m' k i <-> tr_holds m k i \/ R a k i.
Lemma tr_loop {A} (g : A -> traced -> out traced) R l m m' : tr_adds g R -> loop g l m = Done m' ->
  forall k i, tr_holds m' k i <-> tr_holds m k i \/ exists a, In a l /\ R a k i.
Proof.
  intros G. revert m. induction l as [|a l IH]; cbn [loop]; intros m E k i.
  - injection E as ->. split; [auto|]. intros [H|[a [[] _]]]; exact H.
  - apply bind_done in E. destruct E as [m1 [E1 E2]]. rewrite (IH _ E2), (G _ _ _ E1). split.
    + intros [[H|H]|[b [I H]]]; [auto|right; exists a; cbn; auto|right; exists b; cbn; auto].
    + intros [H|[b [[<-|I] H]]]; eauto.
Qed.
Lemma trace_el_adds s i k : tr_adds (trace_el s i k) (fun x k' i' => 0 < snd x /\ k' = mkEl s (fst x) k /\ i' = i).
Proof.
  intros x m m' E k' i'. unfold trace_el in E. destruct (0 <? snd x) eqn:L.
  - apply N.ltb_lt in L. rewrite (set_traced_holds _ _ _ _ E). tauto.
  - apply N.ltb_ge in L. injection E as ->. split; [auto|]. intros [H|[H _]]; [exact H|lia].
Qed.
(** The instance [i] is deployed with tracing slots for the element *)
Definition inst_traces (x : name * inst_depl) (el : element) (i : name) : Prop :=
  exists l n, i = fst x /\ in_binding (snd x) = BLola l /\ sv_name (in_service (snd x)) = e_service el /\
    In (e_name el, n) (ev_slots_of l (e_kind el)) /\ 0 < n.
Lemma trace_inst_adds : tr_adds trace_inst inst_traces.
Proof.
  intros [i0 d] m m' E [s e k] i. unfold trace_inst in E. cbn [fst snd] in E. unfold inst_traces. cbn [fst snd e_service e_name e_kind].
  destruct (in_binding d) as [l|].
  - apply bind_done in E. destruct E as [m1 [E1 E2]].
    rewrite (tr_loop _ _ _ _ _ (trace_el_adds _ _ _) E2), (tr_loop _ _ _ _ _ (trace_el_adds _ _ _) E1). split.
    + intros [[H|[[e0 n] [I (H & Q & ->)]]]|[[e0 n] [I (H & Q & ->)]]]; [auto| |]; injection Q as -> -> ->; right; exists l, n; auto.
    + intros [H|(l0 & n & -> & Q & <- & I & L)]; [auto|]. injection Q as <-. destruct k; [left; right|right]; exists (e, n); auto.
  - injection E as ->. split; [auto|]. intros [H|(l0 & n & _ & Q & _)]; [exact H|discriminate].
Qed.
Lemma traced_of_holds insts tr : traced_of insts = Done tr ->
  forall el i, tr_holds tr el i <-> exists x, In x insts /\ inst_traces x el i.
Proof.
  intros E el i. unfold traced_of in E. rewrite (tr_loop _ _ _ _ _ trace_inst_adds E). split; [intros [[l [H _]]|H]; [discriminate|exact H]|auto].
Qed.

Lemma in_instances_of c s i : In i (instances_of c s) <-> exists d, In (i, d) (all_insts c) /\ sv_name (in_service d) = s.
Proof.
  unfold instances_of. rewrite in_map_iff. split.
  - intros [[j d] [<- H]]. apply filter_In in H. destruct H as [H E]. apply name_eqb_eq in E. exists d. auto.
  - intros [d [H E]]. exists (i, d). split; [reflexivity|]. apply filter_In. split; [exact H|apply name_eqb_eq; exact E].
Qed.
Lemma in_type_names c s : In s (type_names c) <-> exists sv t, In (sv, t) (all_types c) /\ sv_name sv = s.
Proof.
  unfold type_names. rewrite in_map_iff. split; [intros [[sv t] [E H]]; eauto|intros (sv & t & H & E); exists (sv, t); auto].
Qed.
Lemma in_element_names c s k e : In e (element_names c s k) <->
  exists sv t, In (sv, t) (all_types c) /\ sv_name sv = s /\ In e (type_elements k t).
Proof.
  unfold element_names. rewrite in_concat. split.
  - intros [l [H I]]. apply in_map_iff in H. destruct H as [[sv t] [E H]]. cbn [fst snd] in E.
    destruct (name_eqb (sv_name sv) s) eqn:Q; [|subst l; destruct I]. apply name_eqb_eq in Q. subst. eauto.
  - intros (sv & t & H & <- & I). eexists. split; [apply in_map_iff; exists (sv, t); split; [reflexivity|exact H]|].
    cbn [fst snd]. rewrite name_eqb_refl. exact I.
Qed.

(** * Slots *)

Definition sum (l : list N) : N := fold_right N.add 0 l.
Lemma sum_perm a b : Permutation a b -> sum a = sum b.
Proof. induction 1; cbn [sum fold_right] in *; unfold sum in *; cbn in *; lia. Qed.
Lemma sum_app a b : sum (a ++ b) = sum a + sum b.
Proof. induction a as [|x a IH]; cbn; [reflexivity|]. unfold sum in *. cbn. rewrite IH. lia. Qed.
Lemma sum_incl {A} (f : A -> N) (a b : list A) : NoDup a -> incl a b -> sum (map f a) <= sum (map f b).
Proof.
  revert b. induction a as [|x a IH]; intros b D I; cbn [map]; [apply N.le_0_l|]. inversion D as [|? ? D1 D2]; subst.
  destruct (in_split x b (I x (or_introl eq_refl))) as (b1 & b2 & ->).
  assert (H : incl a (b1 ++ b2)).
  { intros y Hy. assert (Q := I y (or_intror Hy)). apply in_app_or in Q. apply in_or_app. destruct Q as [Q|[Q|Q]]; auto. subst. contradiction. }
  specialize (IH _ D2 H). rewrite map_app, sum_app in *. cbn [map]. unfold sum in *. cbn in *. lia.
Qed.

(** The (element, instance) pairs that the loop counts *)
Fixpoint counted (m : pmap) (seen : list element) : list (element * name) :=
  match m with
  | [] => []
  | (x, l) :: t =>
      if negb (keeps_sample true (snd x)) then counted t seen
      else if existsb (element_eqb (fst x)) seen then counted t seen
      else map (fun i => (fst x, i)) l ++ counted t (fst x :: seen)
  end.
Fixpoint seen_after (m : pmap) (seen : list element) : list element :=
  match m with
  | [] => seen
  | (x, l) :: t =>
      if negb (keeps_sample true (snd x)) then seen_after t seen
      else if existsb (element_eqb (fst x)) seen then seen_after t seen
      else seen_after t (fst x :: seen)
  end.

Lemma slots_of_set_sum c e k l n f : (forall i, In i l -> slots_of_inst c e k i = Done (f (e, i))) ->
  slots_of_set c e k l n = Done (n + sum (map f (map (fun i => (e, i)) l))).
Proof.
  unfold slots_of_set. revert n. induction l as [|i l IH]; intros n H; cbn [loop map sum fold_right]; [f_equal; lia|].
  rewrite (H i (or_introl eq_refl)). cbn [bind]. rewrite IH by (intros j Hj; apply H; right; exact Hj). f_equal. unfold sum. lia.
Qed.
Lemma find_slots_sum c k m seen n f :
  (forall x l i, In (x, l) m -> keeps_sample true (snd x) = true -> In i l -> slots_of_inst c (fst x) k i = Done (f (fst x, i))) ->
  find_slots c true k m seen n = Done (seen_after m seen, n + sum (map f (counted m seen))).
Proof.
  revert seen n. induction m as [|[x l] m IH]; intros seen n H; cbn [find_slots seen_after counted map].
  { f_equal. f_equal. unfold sum. cbn. lia. }
  assert (H' : forall y l' i, In (y, l') m -> keeps_sample true (snd y) = true -> In i l' -> slots_of_inst c (fst y) k i = Done (f (fst y, i)))
    by (intros; eapply H; [right| |]; eassumption).
  destruct (negb (keeps_sample true (snd x))) eqn:K; [apply IH, H'|]. apply Bool.negb_false_iff in K.
  destruct (existsb (element_eqb (fst x)) seen); [apply IH, H'|].
  rewrite (slots_of_set_sum c (fst x) k l n f) by (intros i I; apply (H x l i); [left; reflexivity|exact K|exact I]).
  cbn [bind]. rewrite IH by exact H'. f_equal. f_equal. rewrite map_app, sum_app. lia.
Qed.
Lemma find_slots_none c k m seen n : find_slots c false k m seen n = Done (seen, n).
Proof. induction m as [|[x l] m IH]; cbn; [reflexivity|exact IH]. Qed.

Lemma seen_in el seen : existsb (element_eqb el) seen = true <-> In el seen.
Proof.
  rewrite existsb_exists. split; [intros [y [H E]]; apply element_eqb_eq in E; subst; exact H|].
  intros H. exists el. split; [exact H|apply element_eqb_refl].
Qed.
Lemma counted_in m seen el i : In (el, i) (counted m seen) ->
  ~ In el seen /\ exists n l, keeps_sample true n = true /\ In ((el, n), l) m /\ In i l.
Proof.
  revert seen. induction m as [|[x l] m IH]; intros seen H; cbn [counted] in H; [destruct H|].
  assert (W : forall seen', In (el, i) (counted m seen') -> ~ In el seen' /\ exists n l0, keeps_sample true n = true /\ In ((el, n), l0) ((x, l) :: m) /\ In i l0).
  { intros seen' Q. apply IH in Q. destruct Q as [Q (n & l0 & A & B & D)]. split; [exact Q|]. exists n, l0. split; [exact A|]. split; [right; exact B|exact D]. }
  destruct (negb (keeps_sample true (snd x))) eqn:K; [apply W, H|].
  destruct (existsb (element_eqb (fst x)) seen) eqn:S; [apply W, H|].
  apply in_app_or in H. destruct H as [H|H].
  - apply in_map_iff in H. destruct H as [j [E I]]. injection E as <- ->. split.
    + intros Q. apply seen_in in Q. congruence.
    + exists (snd x), l. apply Bool.negb_false_iff in K. split; [exact K|]. split; [left; destruct x; reflexivity|exact I].
  - apply W in H. destruct H as [H1 H2]. split; [|exact H2]. intros Q. apply H1. right. exact Q.
Qed.
(** When the entries of an element agree on the instances, all of them are counted *)
Lemma in_counted m seen el n l i :
  (forall n1 l1 n2 l2, keeps_sample true n1 = true -> keeps_sample true n2 = true ->
     In ((el, n1), l1) m -> In ((el, n2), l2) m -> forall j, In j l1 <-> In j l2) ->
  ~ In el seen -> keeps_sample true n = true -> In ((el, n), l) m -> In i l -> In (el, i) (counted m seen).
Proof.
  revert seen n l. induction m as [|[x l'] m IH]; intros seen n l U S K I J; [destruct I|]. cbn [counted].
  assert (U' : forall n1 l1 n2 l2, keeps_sample true n1 = true -> keeps_sample true n2 = true ->
     In ((el, n1), l1) m -> In ((el, n2), l2) m -> forall j, In j l1 <-> In j l2)
    by (intros n1 l1 n2 l2 K1 K2 I1 I2; apply (U n1 l1 n2 l2 K1 K2); right; assumption).
  destruct (negb (keeps_sample true (snd x))) eqn:Kx.
  - destruct I as [I|I]; [|eapply IH; eassumption]. injection I as -> ->. cbn in K, Kx. rewrite K in Kx. discriminate.
  - apply Bool.negb_false_iff in Kx. destruct x as [el' n']. cbn [fst snd] in *.
    destruct (element_eqb el el') eqn:E.
    + apply element_eqb_eq in E. subst el'. destruct (existsb (element_eqb el) seen) eqn:Q; [apply seen_in in Q; contradiction|].
      apply in_or_app. left. apply in_map_iff. exists i. split; [reflexivity|].
      apply (U n l n' l' K Kx I (or_introl eq_refl) i). exact J.
    + apply element_eqb_neq in E. destruct I as [I|I]; [injection I as I _ _; congruence|].
      destruct (existsb (element_eqb el') seen); [exact (IH seen n l U' S K I J)|].
      apply in_or_app. right. apply (IH _ n l U'); try assumption. intros [Q|Q]; [congruence|contradiction].
Qed.
Lemma nodup_app {A} (a b : list A) : NoDup a -> NoDup b -> (forall x, In x a -> ~ In x b) -> NoDup (a ++ b).
Proof.
  induction a as [|x a IH]; cbn; intros Da Db H; [exact Db|]. inversion Da as [|? ? D1 D2]; subst. constructor.
  - intros Q. apply in_app_or in Q. destruct Q as [Q|Q]; [contradiction|]. exact (H x (or_introl eq_refl) Q).
  - apply IH; [exact D2|exact Db|]. intros y Hy. apply H. right. exact Hy.
Qed.
Lemma counted_nodup m seen : neat m -> NoDup (counted m seen).
Proof.
  revert seen. induction m as [|[x l] m IH]; intros seen [D S]; cbn [counted]; [constructor|].
  cbn [map fst] in D. inversion D as [|? ? D1 D2]; subst.
  assert (N' : neat m) by (split; [exact D2|intros k l' H; apply (S k l'); right; exact H]).
  destruct (negb (keeps_sample true (snd x))); [apply IH, N'|].
  destruct (existsb (element_eqb (fst x)) seen); [apply IH, N'|].
  apply nodup_app.
  - assert (L : NoDup l) by (apply (S x l (or_introl eq_refl))). clear - L. induction l as [|i l IH]; [constructor|].
    inversion L as [|? ? L1 L2]; subst. cbn. constructor; [|apply IH, L2]. intros H. apply in_map_iff in H. destruct H as [j [E H]]. injection E as ->. contradiction.
  - apply IH, N'.
  - intros [el i] H1 H2. apply in_map_iff in H1. destruct H1 as [j [E _]]. injection E as <- _.
    apply counted_in in H2. destruct H2 as [H2 _]. apply H2. left. reflexivity.
Qed.
Lemma seen_after_in m seen el : In el (seen_after m seen) -> In el seen \/ exists n l, In ((el, n), l) m.
Proof.
  revert seen. induction m as [|[x l] m IH]; intros seen H; cbn [seen_after] in H; [auto|].
  assert (W : forall seen', In el (seen_after m seen') -> In el seen' \/ exists n l0, In ((el, n), l0) ((x, l) :: m)).
  { intros seen' Q. apply IH in Q. destruct Q as [Q|(n & l0 & Q)]; [auto|right; exists n, l0; right; exact Q]. }
  destruct (negb (keeps_sample true (snd x))); [apply W, H|].
  destruct (existsb (element_eqb (fst x)) seen); [apply W, H|].
  apply W in H. destruct H as [[<-|H]|H]; [|auto|auto]. right. exists (snd x), l. left. destruct x; reflexivity.
Qed.
