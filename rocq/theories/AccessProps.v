(** C55: consumer access rights. *)
From Verif Require Import Base AccessModel.
Open Scope N_scope.

(** * Specification: the configuration documentation (impl/configuration/README.md:305-320).
    A level without users (no list, or an empty one) is open to everybody unless the permission
    checks are strict; a level with users is open to exactly these. *)
Definition lists_users (o : option (list N)) : Prop := exists u l, o = Some (u :: l).

Definition documented (strict : bool) (o : option (list N)) (u : N) : Prop :=
  match o with
  | Some (a :: l) => In u (a :: l)
  | _ => strict = false
  end.

Lemma mem_In u l : mem u l = true <-> In u l.
Proof.
  unfold mem. rewrite existsb_exists. split.
  - intros (x & H & E). apply N.eqb_eq in E. subst. exact H.
  - intros H. exists u. split; [exact H|apply N.eqb_refl].
Qed.

Lemma nobody_false l u : In u l -> nobody l = false.
Proof. destruct l; [intros []|reflexivity]. Qed.

(** Nobody gets more than documented, in any configuration: a user other than the provider's can
    read or write the control memory of a level only if the documentation allows that user on the
    level; can read the data only if it allows them on some level; and can never write the data. *)
Theorem C55_no_more_than_documented :
  forall c creator um q u,
    u <> creator ->
    (may_read u (control_file creator um c q) = true -> documented (strict c) (consumers c q) u)
    /\ (may_write u (control_file creator um c q) = true -> documented (strict c) (consumers c q) u)
    /\ (may_read u (data_file creator um c) = true ->
          exists q', documented (strict c) (consumers c q') u)
    /\ may_write u (data_file creator um c) = false.
Proof.
  intros c creator um q u NE.
  assert (O : (u =? creator) = false) by (apply N.eqb_neq; exact NE).
  assert (D : forall q', In u (entries (consumers c q')) -> documented (strict c) (consumers c q') u).
  { intros q' H. unfold documented, entries in *. destruct (consumers c q') as [[|a l]|]; [destruct H|exact H|destruct H]. }
  assert (E : forall q', nobody (entries (consumers c q')) = true -> strict c = false ->
              documented (strict c) (consumers c q') u).
  { intros q' H S. unfold documented, entries, nobody in *.
    destruct (consumers c q') as [[|a l]|]; [exact S|discriminate|exact S]. }
  unfold control_file, data_file, control_permissions, data_permissions.
  split; [|split; [|split]].
  - destruct (nobody (entries (consumers c q)) && negb (strict c)) eqn:W.
    + apply andb_true_iff in W. destruct W as [W1 W2]. intros _.
      apply E; [exact W1|destruct (strict c); [discriminate|reflexivity]].
    + unfold may_read, create_file; cbn [owner acl_read other_read]. rewrite O.
      cbn [orb]. rewrite orb_false_r, mem_In. apply D.
  - destruct (nobody (entries (consumers c q)) && negb (strict c)) eqn:W.
    + apply andb_true_iff in W. destruct W as [W1 W2]. intros _.
      apply E; [exact W1|destruct (strict c); [discriminate|reflexivity]].
    + unfold may_write, create_file; cbn [owner acl_write other_write]. rewrite O.
      cbn [orb]. rewrite orb_false_r, mem_In. apply D.
  - destruct (nobody (entries (consumers c QM) ++ entries (consumers c ASILB)) && negb (strict c)) eqn:W.
    + apply andb_true_iff in W. destruct W as [W1 W2]. intros _. exists QM.
      apply E; [|destruct (strict c); [discriminate|reflexivity]].
      destruct (entries (consumers c QM)); [reflexivity|discriminate].
    + unfold may_read, create_file; cbn [owner acl_read other_read]. rewrite O.
      cbn [orb]. rewrite orb_false_r, mem_In, in_app_iff. intros [H|H]; eexists; apply D, H.
  - destruct (_ && _); unfold may_write, create_file; cbn [owner acl_write other_write mem existsb];
      rewrite O; reflexivity.
Qed.

(** Under strict permissions only explicitly configured users get access, and they do get it. *)
Theorem C55_strict :
  forall c creator um q u,
    strict c = true -> u <> creator ->
    (may_read u (control_file creator um c q) = true <-> exists l, consumers c q = Some l /\ In u l)
    /\ (may_write u (control_file creator um c q) = true <-> exists l, consumers c q = Some l /\ In u l)
    /\ (may_read u (data_file creator um c) = true <->
          exists q' l, consumers c q' = Some l /\ In u l)
    /\ (methods_allowed c q u = true <-> exists l, consumers c q = Some l /\ In u l).
Proof.
  intros c creator um q u S NE.
  assert (O : (u =? creator) = false) by (apply N.eqb_neq; exact NE).
  assert (D : forall q', In u (entries (consumers c q')) <-> exists l, consumers c q' = Some l /\ In u l).
  { intros q'. unfold entries. destruct (consumers c q') as [l|]; split.
    - intros H. exists l. split; [reflexivity|exact H].
    - intros (l' & E & H). injection E as <-. exact H.
    - intros [].
    - intros (l' & E & H). discriminate. }
  unfold control_file, data_file, control_permissions, data_permissions. rewrite S.
  rewrite !andb_false_r. unfold may_read, may_write, create_file.
  cbn [owner acl_read other_read acl_write other_write]. rewrite O. cbn [orb].
  rewrite !orb_false_r, !mem_In.
  split; [apply D|]. split; [apply D|]. split.
  - rewrite in_app_iff, !D. split.
    + intros [(l & H)|(l & H)]; [exists QM, l|exists ASILB, l]; exact H.
    + intros (q' & l & H). destruct q'; [left|right]; exists l; exact H.
  - unfold methods_allowed. rewrite S. destruct (consumers c q) as [l|]; [rewrite mem_In|]; split.
    + intros H; exists l; auto.
    + intros (l' & E & H). injection E as <-. exact H.
    + discriminate.
    + intros (l' & E & H). discriminate.
Qed.

(** Everybody the documentation allows can attach — provided the user is listed or no level lists
    any user, and the provider's umask leaves the right to read to others. Missing from the full
    statement: the cases of the three refutations below. *)
Theorem C55_documented_can_attach_partial :
  forall pc cc creator um q me,
    documented (strict pc) (consumers pc q) me ->
    (lists_users (consumers pc q) \/ ~ lists_users (consumers pc (other_quality q))) ->
    mask_read um = false ->
    provider_accepted cc q me creator = true ->
    open_shared_memory pc cc creator um q me = true.
Proof.
  intros pc cc creator um q me D L U A. unfold open_shared_memory.
  set (ctl := control_file creator um pc q). set (dat := data_file creator um pc).
  assert (OC : owner ctl = creator).
  { unfold ctl, control_file, create_file. destruct (control_permissions pc q); reflexivity. }
  assert (OD : owner dat = creator).
  { unfold dat, data_file, create_file. destruct (data_permissions pc); reflexivity. }
  rewrite OC, OD, A. rewrite !andb_true_r.
  assert (Cases : In me (entries (consumers pc q))
    \/ (nobody (entries (consumers pc q)) = true /\ strict pc = false
        /\ nobody (entries (consumers pc (other_quality q))) = true)).
  { unfold documented in D. destruct (consumers pc q) as [[|a l]|] eqn:E.
    - right. split; [reflexivity|]. split; [exact D|].
      destruct L as [(x & l & X)|L]; [discriminate X|].
      destruct (consumers pc (other_quality q)) as [[|b l]|]; try reflexivity.
      exfalso; apply L; eexists; eexists; reflexivity.
    - left. exact D.
    - right. split; [reflexivity|]. split; [exact D|].
      destruct L as [(x & l & X)|L]; [discriminate X|].
      destruct (consumers pc (other_quality q)) as [[|b l]|]; try reflexivity.
      exfalso; apply L; eexists; eexists; reflexivity. }
  assert (R : may_read me ctl = true /\ may_write me ctl = true).
  { unfold ctl, control_file, control_permissions. destruct Cases as [I|(N1 & S & N2)].
    - rewrite (nobody_false _ _ I). cbn [andb]. unfold may_read, may_write, create_file.
      cbn [owner acl_read other_read acl_write other_write].
      rewrite (proj2 (mem_In _ _) I). rewrite !orb_true_r. split; reflexivity.
    - rewrite N1, S. cbn. unfold may_read, may_write. cbn. rewrite !orb_true_r. split; reflexivity. }
  rewrite (proj1 R), (proj2 R). cbn [andb].
  unfold dat, data_file, data_permissions. destruct Cases as [I|(N1 & S & N2)].
  - assert (I' : In me (entries (consumers pc QM) ++ entries (consumers pc ASILB)))
      by (apply in_app_iff; destruct q; auto).
    rewrite (nobody_false _ _ I'). cbn [andb]. unfold may_read, create_file.
    cbn [owner acl_read other_read]. rewrite (proj2 (mem_In _ _) I'). rewrite orb_true_r. reflexivity.
  - assert (N' : nobody (entries (consumers pc QM) ++ entries (consumers pc ASILB)) = true).
    { destruct q; cbn [other_quality] in N2;
        destruct (entries (consumers pc QM)), (entries (consumers pc ASILB));
        try discriminate; reflexivity. }
    rewrite N', S. cbn [andb negb]. unfold may_read, create_file. cbn [owner acl_read other_read].
    rewrite U. rewrite !orb_true_r. reflexivity.
Qed.

Definition no_umask : umask := mkUmask false false.
Definition open_config : config := mkConfig false (fun _ => None) (fun _ => None).

(** No list for QM ("no restriction"), a list for ASIL-B: a QM consumer cannot attach, because the
    data memory is restricted to the listed ASIL-B users. *)
Theorem C55_omitted_list_refuted :
  exists pc cc creator q me,
    documented (strict pc) (consumers pc q) me /\ me <> creator
    /\ provider_accepted cc q me creator = true
    /\ open_shared_memory pc cc creator no_umask q me = false
    /\ may_write me (control_file creator no_umask pc q) = true.
Proof.
  exists (mkConfig false (fun q => match q with QM => None | ASILB => Some [5] end) (fun _ => None)),
         open_config, 1, QM, 7.
  split; [reflexivity|]. split; [discriminate|]. repeat split.
Qed.

(** With a umask that takes the right to read from others, an unrestricted service instance can be
    consumed by nobody else: the mode of world-writable memory is restored after creation, the mode
    of world-readable memory is not. *)
Theorem C55_umask_refuted :
  exists pc cc creator um q me,
    documented (strict pc) (consumers pc q) me /\ documented (strict pc) (consumers pc (other_quality q)) me
    /\ provider_accepted cc q me creator = true
    /\ may_write me (control_file creator um pc q) = true
    /\ open_shared_memory pc cc creator um q me = false.
Proof.
  exists open_config, open_config, 1, (mkUmask true true), QM, 7. repeat split.
Qed.

(** Methods: who may call them is as documented, except that an empty list means nobody even when
    the permission checks are not strict. *)
Theorem C55_methods_partial :
  forall c q u,
    consumers c q <> Some [] ->
    (methods_allowed c q u = true <-> documented (strict c) (consumers c q) u).
Proof.
  intros c q u NE. unfold methods_allowed, documented. destruct (consumers c q) as [[|a l]|].
  - congruence.
  - apply mem_In.
  - destruct (strict c); cbn; split; congruence.
Qed.

Theorem C55_methods_empty_list_refuted :
  exists c q u creator,
    documented (strict c) (consumers c q) u
    /\ open_shared_memory c open_config creator no_umask q u = true
    /\ methods_allowed c q u = false.
Proof.
  exists (mkConfig false (fun _ => Some []) (fun _ => None)), QM, 7, 1. repeat split.
Qed.

(** Which providers a consumer accepts: its own user always; otherwise as documented, except that
    an empty list accepts nobody even when the permission checks are not strict. *)
Theorem C55_provider_partial :
  forall c q me provider,
    providers c q <> Some [] ->
    (provider_accepted c q me provider = true
       <-> provider = me \/ documented (strict c) (providers c q) provider).
Proof.
  intros c q me p NE. unfold provider_accepted, documented, uid_match.
  destruct (providers c q) as [[|a l]|].
  - congruence.
  - rewrite orb_true_iff, N.eqb_eq, mem_In. reflexivity.
  - destruct (strict c).
    + rewrite orb_true_iff, N.eqb_eq. cbn. split; intros [H|H]; auto; discriminate.
    + split; [intros _; right; reflexivity|reflexivity].
Qed.

Theorem C55_empty_provider_list_refuted :
  exists c q me provider,
    documented (strict c) (providers c q) provider
    /\ provider_accepted c q me provider = false.
Proof.
  exists (mkConfig false (fun _ => None) (fun _ => Some [])), QM, 7, 1. repeat split.
Qed.

(** With a list, exactly the listed users attach. *)
Example C55_example :
  let c := mkConfig false (fun q => match q with QM => Some [5; 6] | ASILB => Some [8] end) (fun _ => None) in
  open_shared_memory c open_config 1 no_umask QM 5 = true
  /\ open_shared_memory c open_config 1 no_umask QM 7 = false
  /\ open_shared_memory c open_config 1 no_umask ASILB 5 = false
  /\ open_shared_memory c open_config 1 no_umask ASILB 8 = true
  /\ lists_users (consumers c QM) /\ documented (strict c) (consumers c QM) 5.
Proof. cbn. repeat split; [eexists; eexists; reflexivity|auto]. Qed.

Example C55_strict_example :
  let c := mkConfig true (fun q => match q with QM => Some [5] | ASILB => None end) (fun _ => None) in
  strict c = true /\ may_write 5 (control_file 1 no_umask c QM) = true
  /\ may_write 5 (control_file 1 no_umask c ASILB) = false
  /\ methods_allowed c ASILB 5 = false.
Proof. repeat split. Qed.

Print Assumptions C55_no_more_than_documented.
Print Assumptions C55_documented_can_attach_partial.
