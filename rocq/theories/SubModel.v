(** Model of Subscribe / Unsubscribe of one event by many consumers: the shared
    subscription counter (EventSubscriptionControl), the set of transaction logs
    (TransactionLogSet) and the subscribe part of a log.  Paths are relative to
    /repo/score/mw/com/impl/bindings/lola.

    Every access of shared memory is one step; the steps of the consumers
    interleave arbitrarily.  A weak compare-exchange may fail spuriously (ZSpur).
    A consumer may die at any point (ZCrash); the restarted application then rolls
    its log back (ZRollback).
    Simplifications: the uid stored in a log is represented by the consumer that
    acquired it (ghost owner); the two stores of SubscribeTransactionBegin (flag,
    count) are one step, as the count is only read when both flags are set; the
    slot part of the log is modelled in EventModel.v. *)
From Verif Require Export Base.

Definition two8 : N := 256%N.

(** event_subscription_control.cpp:22-49; SubscriberCountType is uint8 (event_subscription_control.h:59) *)
Definition subs_of (w : N) : N := ((w / two16) mod two8)%N.
Definition slots_of (w : N) : N := (w mod two16)%N.
Definition mk_state (subs slots : N) : N := (subs mod two8 * two16 + slots mod two16)%N.

(** why a consumer process was terminated *)
Inductive reason :=
| RSubsZero     (* event_subscription_control.cpp:134-139 *)
| RSlots        (* event_subscription_control.cpp:141-147 *)
| RRetry        (* event_subscription_control.cpp:158-160 *)
| ROverflow     (* subscription_not_subscribed_states.cpp:74-76 *)
| RLog.         (* a precondition of the transaction log *)

Inductive zres := ZOk | ZMaxSubscribersExceeded | ZMaxSampleCountNotRealizable | ZCouldNotRestartProxy.

Inductive zpc :=
| ZNot                                  (* NOT_SUBSCRIBED, no call running *)
| ZAcq (r i : nat) (c : N)              (* AcquireNextAvailableSlot: round r, log i *)
| ZBegin (k : nat) (c : N)              (* SubscribeTransactionBegin *)
| ZLoad (k : nat) (c : N) (r : nat)     (* EventSubscriptionControl::Subscribe, load *)
| ZCas (k : nat) (c : N) (r : nat) (old : N)
| ZAbort (k : nat)                      (* SubscribeTransactionAbort *)
| ZRel (k : nat)                        (* Unregister: Reset of the log node *)
| ZCommit (k : nat) (c : N)             (* SubscribeTransactionCommit *)
| ZSub (k : nat) (c : N)                (* subscribed, no call running *)
| ZUBegin (k : nat) (c : N)             (* UnsubscribeTransactionBegin *)
| ZULoad (k : nat) (c : N) (r : nat)    (* EventSubscriptionControl::Unsubscribe, load *)
| ZUCas (k : nat) (c : N) (r : nat) (old : N)
| ZUCommit (k : nat)                    (* UnsubscribeTransactionCommit *)
| ZDead (k : option nat) (g : option N) (* dead; ghost: log it owns, samples it has counted *)
| ZTerm (why : reason) (k : option nat) (g : option N).

Record zlog := mkZL { zown : option nat; zbeg : bool; zend : bool; zcnt : N }.

Record zst := mkZ { ctl : N; logs : nat -> zlog; pcs : nat -> zpc; resu : nat -> zres }.

Definition z_ctl s x := mkZ x (logs s) (pcs s) (resu s).
Definition z_log s k x := mkZ (ctl s) (fupd (logs s) k x) (pcs s) (resu s).
Definition z_pc s p x := mkZ (ctl s) (logs s) (fupd (pcs s) p x) (resu s).
Definition z_res s p x := mkZ (ctl s) (logs s) (pcs s) (fupd (resu s) p x).

(** log owned at a program point *)
Definition klog (pc : zpc) : option nat :=
  match pc with
  | ZNot | ZAcq _ _ _ => None
  | ZBegin k _ | ZLoad k _ _ | ZCas k _ _ _ | ZAbort k | ZRel k | ZCommit k _ | ZSub k _
  | ZUBegin k _ | ZULoad k _ _ | ZUCas k _ _ _ | ZUCommit k => Some k
  | ZDead k _ | ZTerm _ k _ => k
  end.

(** number of samples the consumer has added to the shared counter and not yet
    taken away again (None: it is not counted) *)
Definition held (pc : zpc) : option N :=
  match pc with
  | ZCommit _ c | ZSub _ c | ZUBegin _ c | ZULoad _ c _ | ZUCas _ c _ _ => Some c
  | ZDead _ g | ZTerm _ _ g => g
  | _ => None
  end.

Section Sub.
Variable M : nat.         (* max_subscribers = number of logs *)
Variable S : N.           (* max_subscribable_slots_ *)
Variable enforce : bool.  (* enforce_max_samples_ *)

Definition terminate (s : zst) (p : nat) (why : reason) : zst :=
  z_pc s p (ZTerm why (klog (pcs s p)) (held (pcs s p))).

(** next attempt of the loops at event_subscription_control.cpp:77 and 129 *)
Definition retry_sub (s : zst) (p k : nat) (c : N) (r : nat) : zst :=
  if Datatypes.S r <? 2 * M then z_pc s p (ZLoad k c (Datatypes.S r)) else z_pc s p (ZAbort k).
Definition retry_unsub (s : zst) (p k : nat) (c : N) (r : nat) : zst :=
  if Datatypes.S r <? 3 * M then z_pc s p (ZULoad k c (Datatypes.S r)) else terminate s p RRetry.

Definition zstep1 (s : zst) (p : nat) : zst :=
  match pcs s p with
  | ZNot | ZSub _ _ | ZDead _ _ | ZTerm _ _ _ => s
  (* transaction_log_set.cpp:225-270, 125-143 *)
  | ZAcq r i c =>
      if i <? M then
        match zown (logs s i) with
        | Some _ => z_pc s p (ZAcq r (Datatypes.S i) c)
        | None => z_pc (z_log s i (mkZL (Some p) (zbeg (logs s i)) (zend (logs s i)) (zcnt (logs s i)))) p (ZBegin i c)
        end
      else if Datatypes.S r <? M then z_pc s p (ZAcq (Datatypes.S r) 0 c)
      else z_res (z_pc s p ZNot) p ZMaxSubscribersExceeded
  (* transaction_log_local_view.cpp:73-79 *)
  | ZBegin k c =>
      let l := logs s k in
      if zbeg l || zend l then terminate s p RLog
      else z_pc (z_log s k (mkZL (zown l) true (zend l) c)) p (ZLoad k c 0)
  (* event_subscription_control.cpp:80-94 *)
  | ZLoad k c r =>
      let w := ctl s in
      if (N.of_nat M <=? subs_of w)%N then terminate s p ROverflow
      else if enforce && (S <? slots_of w + c)%N then z_pc s p (ZAbort k)
      else z_pc s p (ZCas k c r w)
  (* event_subscription_control.cpp:96-108 *)
  | ZCas k c r old =>
      if (ctl s =? old)%N
      then z_pc (z_ctl s (mk_state (subs_of old + 1) (slots_of old + c))) p (ZCommit k c)
      else retry_sub s p k c r
  (* transaction_log_local_view.cpp:88-93, subscription_not_subscribed_states.cpp:77-84 *)
  | ZAbort k =>
      let l := logs s k in
      if negb (zbeg l) || zend l then terminate s p RLog
      else z_res (z_pc (z_log s k (mkZL (zown l) false (zend l) (zcnt l))) p (ZRel k)) p ZMaxSampleCountNotRealizable
  (* transaction_log_set.cpp:44-51, 159-171 *)
  | ZRel k =>
      let l := logs s k in
      if zbeg l || zend l then terminate s p RLog
      else z_pc (z_log s k (mkZL None (zbeg l) (zend l) (zcnt l))) p ZNot
  (* transaction_log_local_view.cpp:81-86 *)
  | ZCommit k c =>
      let l := logs s k in
      if negb (zbeg l) || zend l then terminate s p RLog
      else z_res (z_pc (z_log s k (mkZL (zown l) (zbeg l) true (zcnt l))) p (ZSub k c)) p ZOk
  (* transaction_log_local_view.cpp:95-100 *)
  | ZUBegin k c =>
      let l := logs s k in
      if negb (zbeg l) || negb (zend l) then terminate s p RLog
      else z_pc (z_log s k (mkZL (zown l) false (zend l) (zcnt l))) p (ZULoad k c 0)
  (* event_subscription_control.cpp:132-147 *)
  | ZULoad k c r =>
      let w := ctl s in
      if (subs_of w =? 0)%N then terminate s p RSubsZero
      else if (slots_of w <? c)%N then terminate s p RSlots
      else z_pc s p (ZUCas k c r w)
  (* event_subscription_control.cpp:149-157 *)
  | ZUCas k c r old =>
      if (ctl s =? old)%N
      then z_pc (z_ctl s (mk_state (subs_of old - 1) (slots_of old - c))) p (ZUCommit k)
      else retry_unsub s p k c r
  (* transaction_log_local_view.cpp:102-108 *)
  | ZUCommit k =>
      let l := logs s k in
      if zbeg l || negb (zend l) then terminate s p RLog
      else z_pc (z_log s k (mkZL (zown l) (zbeg l) false 0%N)) p (ZRel k)
  end.

Inductive zlabel :=
| ZSubscribe (p : nat) (c : N)   (* Subscribe(c) is called *)
| ZUnsubscribe (p : nat)         (* Unsubscribe() is called *)
| ZStep (p : nat)                (* next access to shared memory *)
| ZSpur (p : nat)                (* the compare-exchange fails spuriously *)
| ZCrash (p : nat)
| ZRollback (p : nat).           (* restarted application rolls the log back *)

Definition zstep (s : zst) (l : zlabel) : zst :=
  match l with
  (* proxy_event_common.cpp:45-52: at most 255 samples; subscription_not_subscribed_states.cpp:38-41;
     a set of no logs fails at once *)
  | ZSubscribe p c =>
      match pcs s p with
      | ZNot => if (c <=? 255)%N then
                  if 0 <? M then z_pc s p (ZAcq 0 0 c) else z_res s p ZMaxSubscribersExceeded
                else s
      | _ => s
      end
  (* subscription_not_subscribed_states.cpp:157-170 *)
  | ZUnsubscribe p => match pcs s p with ZSub k c => z_pc s p (ZUBegin k c) | _ => s end
  | ZStep p => zstep1 s p
  | ZSpur p => match pcs s p with
               | ZCas k c r _ => retry_sub s p k c r
               | ZUCas k c r _ => retry_unsub s p k c r
               | _ => s
               end
  | ZCrash p => match pcs s p with
                | ZTerm _ _ _ | ZDead _ _ => s
                | _ => z_pc s p (ZDead (klog (pcs s p)) (held (pcs s p)))
                end
  (* transaction_log_local_view.cpp:243-270, transaction_log_set.cpp:98-102: the log of
     the dead consumer is rolled back; a half-finished transaction is an error *)
  | ZRollback p =>
      match pcs s p with
      | ZDead None _ | ZTerm _ None _ => z_pc s p ZNot
      | ZDead (Some k) _ | ZTerm _ (Some k) _ =>
          let l := logs s k in
          if zbeg l && zend l then z_pc s p (ZUBegin k (zcnt l))
          else if zbeg l || zend l then z_res s p ZCouldNotRestartProxy
          else z_pc s p (ZRel k)
      | _ => s
      end
  end.

Definition zrun (s : zst) (ls : list zlabel) : zst := fold_left zstep ls s.

Definition zinit : zst :=
  mkZ 0 (fun _ => mkZL None false false 0) (fun _ => ZNot) (fun _ => ZOk).

End Sub.
