(** C53: error codes survive serialization. *)
From Verif Require Import Base ErrorCodeModel.
Open Scope Z_scope.

(** Specification: the error codes of com_error.h:33-65 and method_error.h:33-40. *)
Definition error_codes (d : domain) : list Z :=
  match d with
  | DCom => [1;2;3;4;5;6;7;8;9;10;11;12;13;14;15;16;17;18;19;20;21;22;23;24;25;26;27;28;29;30;31;32;33]
  | DMethod => [1;2;3;4;5;6;7]
  end.

Lemma codes_range d e : In e (error_codes d) -> 0 < e < num_elements d.
Proof. destruct d; cbn; intros H; repeat destruct H as [<-|H]; try lia. Qed.

Lemma codes_all d e : 0 < e < num_elements d -> In e (error_codes d).
Proof. destruct d; cbn [num_elements error_codes In]; intros H; lia. Qed.

(** Every result, success or any error code, is read back unchanged, and nothing aborts. *)
Theorem C53_round_trip :
  forall d,
    deserialize d serialize_success = Ret Success
    /\ (forall e, In e (error_codes d) ->
          exists s, serialize_error d e = Ret s /\ deserialize d s = Ret (Failure e)).
Proof.
  intros d. split; [destruct d; reflexivity|].
  intros e He. apply codes_range in He. exists e.
  unfold serialize_error, deserialize, k_invalid.
  replace ((0 <? e) && (e <? num_elements d)) with true by lia.
  replace ((0 <=? e) && (e <? num_elements d)) with true by lia.
  replace (e =? 0) with false by lia. split; reflexivity.
Qed.

(** Different results have different serialized forms, and success is never an error's form. *)
Theorem C53_distinct :
  forall d e e' s,
    serialize_error d e = Ret s ->
    s <> serialize_success /\ (serialize_error d e' = Ret s -> e = e').
Proof.
  intros d e e' s. unfold serialize_error, serialize_success, k_invalid.
  destruct ((0 <? e) && (e <? num_elements d)) eqn:A; [|discriminate].
  intros E; injection E as <-. split; [lia|].
  destruct ((0 <? e') && (e' <? num_elements d)); [|discriminate]. congruence.
Qed.

(** Exactly the codes of the domain can be serialized; and exactly 0 and these codes can be
    deserialized. Any other number aborts the process that handles it. *)
Theorem C53_domain :
  forall d e,
    (serialize_error d e <> Abort <-> In e (error_codes d))
    /\ (deserialize d e <> Abort <-> (e = 0 \/ In e (error_codes d))).
Proof.
  intros d e. unfold serialize_error, deserialize, k_invalid. split.
  - destruct ((0 <? e) && (e <? num_elements d)) eqn:A; split; intros H; try congruence.
    + apply codes_all; lia.
    + apply codes_range in H. lia.
  - destruct ((0 <=? e) && (e <? num_elements d)) eqn:A; split; intros H; try congruence.
    + destruct (Z.eq_dec e 0); [left; assumption|right; apply codes_all; lia].
    + destruct H as [->|H]; [destruct d; cbn in A; lia|apply codes_range in H; lia].
Qed.

(** A code of one domain read as a code of the other is silently another error, or aborts. *)
Theorem C53_other_domain_refuted :
  (exists e s, In e (error_codes DCom) /\ serialize_error DCom e = Ret s
               /\ deserialize DMethod s = Abort)
  /\ (exists e s, In e (error_codes DCom) /\ serialize_error DCom e = Ret s
               /\ deserialize DMethod s = Ret (Failure e) /\ In e (error_codes DMethod)).
Proof.
  split.
  - exists 9, 9. cbn. intuition.
  - exists 3, 3. cbn. intuition.
Qed.

Example C53_example :
  serialize_error DCom 33 = Ret 33 /\ deserialize DCom 33 = Ret (Failure 33)
  /\ serialize_error DCom 34 = Abort /\ deserialize DMethod 8 = Abort.
Proof. repeat split. Qed.

Print Assumptions C53_round_trip.
