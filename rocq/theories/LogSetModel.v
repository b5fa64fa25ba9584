(** Model of the set of transaction logs of one event, of the rollback of the
    logs of a crashed application and of the executor that runs it.

    Paths are relative to /repo/score/mw/com/impl/bindings/lola.  *)
From Verif Require Export Base.

(** transaction_log_slot.h: the two flags (begin, end) of one slot *)
Definition flags := (bool * bool)%type.

(** transaction_log.h: subscribe_transactions_, subscription_max_sample_count_,
    reference_count_slots_ *)
Record tlog := mkLog { l_sub : flags; l_max : option N; l_slots : list flags }.

(** transaction_log_set.h:55-161 TransactionLogNode.  [n_id = None] stands for
    kInvalidTransactionLogId.  [n_gen] is a ghost: which life of the
    application's process registered the log. *)
Record node := mkNode { n_need : bool; n_id : option N; n_log : tlog; n_gen : nat }.

(** what a rollback does to the event: dereference_slot_callback(i),
    unsubscribe_callback(n) *)
Inductive eff := EDeref (i : nat) | EUnsub (n : N).

(** ROk = success, RErr = kCouldNotRestartProxy, RAbort = std::terminate *)
Inductive res := ROk | RErr | RAbort.

(** transaction_log_local_view.cpp:209-241 RollbackIncrementTransactions.  The
    begin/commit around the callback leave the flags (false, false). *)
Fixpoint rb_slots (i : nat) (l : list flags) : list flags * list eff * bool :=
  match l with
  | [] => ([], [], true)
  | s :: r =>
      match s with
      | (true, true) => let '(r', e, ok) := rb_slots (S i) r in ((false, false) :: r', EDeref i :: e, ok)
      | (false, false) => let '(r', e, ok) := rb_slots (S i) r in ((false, false) :: r', e, ok)
      | _ => (s :: r, [], false)
      end
  end.

(** transaction_log_local_view.cpp:243-270 RollbackSubscribeTransactions.
    [subscription_max_sample_count_.value()] on an empty optional aborts. *)
Definition rb_sub (g : tlog) : tlog * list eff * res :=
  match l_sub g with
  | (true, true) =>
      match l_max g with
      | Some n => (mkLog (false, false) None (l_slots g), [EUnsub n], ROk)
      | None => (g, [], RAbort)
      end
  | (false, false) => (g, [], ROk)
  | _ => (g, [], RErr)
  end.

(** transaction_log_local_view.cpp:27-58 DoesLogContainIncrementOrDecrementTransactions *)
Definition has_slot_tx (l : list flags) : bool := existsb (fun s => fst s || snd s) l.

(** transaction_log_local_view.cpp:272-278 *)
Definition contains_tx (g : tlog) : bool := fst (l_sub g) || snd (l_sub g) || has_slot_tx (l_slots g).

(** transaction_log_local_view.cpp:175-195 RollbackProxyElementLog *)
Definition rb_log (g : tlog) : tlog * list eff * res :=
  if negb (fst (l_sub g)) && negb (snd (l_sub g)) && has_slot_tx (l_slots g) then (g, [], RAbort)
  else
    let '(sl, e, ok) := rb_slots 0 (l_slots g) in
    let g1 := mkLog (l_sub g) (l_max g) sl in
    if ok then let '(g2, e2, r) := rb_sub g1 in (g2, e ++ e2, r)
    else (g1, e, RErr).

(** transaction_log_set.cpp:44-51 Reset (None = one of its assertions) and
    transaction_log_set.h:105-111 Release *)
Definition reset_node (n : node) : option node :=
  if contains_tx (n_log n) then None
  else match n_id n with
       | None => None
       | Some _ => Some (mkNode false None (n_log n) (n_gen n))
       end.

(** transaction_log_set.cpp:36-42, 208-219: the test of
    FindTransactionLogNodesToBeRolledBack *)
Definition flagged (id : N) (n : node) : bool :=
  match n_id n with Some j => (j =? id)%N && n_need n | None => false end.

(** transaction_log_set.cpp:82-105 RollbackProxyTransactions: the first log that
    can be rolled back ends the loop. [r] is rollback_result so far. *)
Fixpoint rb_nodes (id : N) (l : list node) (r : res) : list node * list eff * res :=
  match l with
  | [] => ([], [], r)
  | n :: rest =>
      if flagged id n then
        let '(g, e, r1) := rb_log (n_log n) in
        let n1 := mkNode (n_need n) (n_id n) g (n_gen n) in
        match r1 with
        | ROk => match reset_node n1 with
                 | Some n2 => (n2 :: rest, e, ROk)
                 | None => (n1 :: rest, e, RAbort)
                 end
        | RErr => let '(rest', e', r') := rb_nodes id rest RErr in (n1 :: rest', e ++ e', r')
        | RAbort => (n1 :: rest, e, RAbort)
        end
      else let '(rest', e', r') := rb_nodes id rest r in (n :: rest', e', r')
  end.
Definition rollback_proxy (id : N) (l : list node) : list node * list eff * res := rb_nodes id l ROk.

(** transaction_log_set.cpp:64-80 MarkTransactionLogsNeedRollback *)
Definition mark_node (id : N) (n : node) : node :=
  match n_id n with
  | Some j => if (j =? id)%N then mkNode true (n_id n) (n_log n) (n_gen n) else n
  | None => n
  end.

(** transaction_log_set.cpp:225-270 AcquireNextAvailableSlot without contention *)
Fixpoint acquire (id : N) (gen : nat) (l : list node) : option (list node * nat) :=
  match l with
  | [] => None
  | n :: rest =>
      match n_id n with
      | None => Some (mkNode false (Some id) (n_log n) gen :: rest, 0)
      | Some _ => match acquire id gen rest with
                  | Some (rest', i) => Some (n :: rest', S i)
                  | None => None
                  end
      end
  end.

(** transaction_log_set.cpp:125-143 RegisterProxyElement: (set, index or error, abort) *)
Inductive reg := RegOk (i : nat) | RegFull | RegAbort.
Definition register (id : N) (gen : nat) (l : list node) : list node * reg :=
  match acquire id gen l with
  | None => (l, RegFull)
  | Some (l', i) =>
      match nth_error l' i with
      | Some n => if contains_tx (n_log n) then (l', RegAbort) else (l', RegOk i)
      | None => (l', RegAbort)
      end
  end.

(** list update *)
Fixpoint upd {A} (l : list A) (i : nat) (v : A) : list A :=
  match l, i with
  | [], _ => []
  | _ :: t, O => v :: t
  | h :: t, S k => h :: upd t k v
  end.

(** transaction_log_set.cpp:159-171 Unregister for a proxy log; None = assertion *)
Definition unregister (i : nat) (l : list node) : option (list node) :=
  match nth_error l i with
  | None => None
  | Some n => match reset_node n with Some n' => Some (upd l i n') | None => None end
  end.

(** transaction_log_rollback_executor.cpp:120-138: every event in turn, the first
    error ends the loop.  Effects are tagged with the event's position. *)
Fixpoint rb_events (id : N) (k : nat) (evs : list (list node)) : list (list node) * list (nat * eff) * res :=
  match evs with
  | [] => ([], [], ROk)
  | l :: rest =>
      let '(l', e, r) := rollback_proxy id l in
      match r with
      | ROk => let '(rest', e', r') := rb_events id (S k) rest in (l' :: rest', map (pair k) e ++ e', r')
      | _ => (l' :: rest, map (pair k) e, r)
      end
  end.

(** One service instance seen by all applications.  [w_gen id]: how often the
    process of application [id] was restarted; [w_prep id]: the process-local map
    of RollbackSynchronization knows the instance (rollback_synchronization.cpp:19-37). *)
Record world := mkW { w_evs : list (list node); w_gen : N -> nat; w_prep : N -> bool }.
Definition nupd {A} (f : N -> A) (k : N) (v : A) : N -> A := fun x => if (x =? k)%N then v else f x.

Inductive wop :=
| WCreate (id : N)                        (* Proxy::Create in application id *)
| WSubscribe (id : N) (e : nat)           (* RegisterProxyElement *)
| WLog (e i : nat) (g : tlog)             (* any recording of transactions in log i *)
| WUnsubscribe (e i : nat)                (* guard destroyed: Unregister *)
| WCrash (id : N).                        (* the process of id dies and is started again *)

(** what the calling process observed *)
Inductive wout := WDone | WError | WAbort | WNotPossible.

(** transaction_log_rollback_executor.cpp:99-139 RollbackTransactionLogs: the
    first proxy of a process marks, every proxy rolls back.  Registering the
    process id and the notification of the provider (70-90) are in PidMapModel.v.
    Steps a live application cannot take (subscribing without a proxy, touching a
    log that is not its own) are [WNotPossible]. *)
Definition owns (w : world) (n : node) : bool :=
  match n_id n with Some id => (n_gen n =? w_gen w id) | None => false end.
Definition wstep (w : world) (o : wop) : world * list (nat * eff) * wout :=
  match o with
  | WCreate id =>
      let evs0 := if w_prep w id then w_evs w else map (map (mark_node id)) (w_evs w) in
      let '(evs, e, r) := rb_events id 0 evs0 in
      (mkW evs (w_gen w) (nupd (w_prep w) id true), e,
       match r with ROk => WDone | RErr => WError | RAbort => WAbort end)
  | WSubscribe id e =>
      if w_prep w id then
        match nth_error (w_evs w) e with
        | None => (w, [], WNotPossible)
        | Some l =>
            let '(l', r) := register id (w_gen w id) l in
            (mkW (upd (w_evs w) e l') (w_gen w) (w_prep w), [],
             match r with RegOk _ => WDone | RegFull => WError | RegAbort => WAbort end)
        end
      else (w, [], WNotPossible)
  | WLog e i g =>
      match nth_error (w_evs w) e with
      | None => (w, [], WNotPossible)
      | Some l =>
          match nth_error l i with
          | None => (w, [], WNotPossible)
          | Some n =>
              if owns w n then
                (mkW (upd (w_evs w) e (upd l i (mkNode (n_need n) (n_id n) g (n_gen n)))) (w_gen w) (w_prep w), [], WDone)
              else (w, [], WNotPossible)
          end
      end
  | WUnsubscribe e i =>
      match nth_error (w_evs w) e with
      | None => (w, [], WNotPossible)
      | Some l =>
          match nth_error l i with
          | None => (w, [], WNotPossible)
          | Some n =>
              if owns w n then
                match unregister i l with
                | Some l' => (mkW (upd (w_evs w) e l') (w_gen w) (w_prep w), [], WDone)
                | None => (w, [], WAbort)
                end
              else (w, [], WNotPossible)
          end
      end
  | WCrash id => (mkW (w_evs w) (nupd (w_gen w) id (S (w_gen w id))) (nupd (w_prep w) id false), [], WDone)
  end.

Fixpoint wrun (w : world) (ops : list wop) : world :=
  match ops with
  | [] => w
  | o :: r => wrun (fst (fst (wstep w o))) r
  end.

(** transaction_log_set.cpp:53-62: freshly created sets, [nslots] flags per log *)
Definition empty_log (nslots : nat) : tlog := mkLog (false, false) None (repeat (false, false) nslots).
Definition winit (cfg : list (nat * nat)) : world :=
  mkW (map (fun c => repeat (mkNode false None (empty_log (snd c)) 0) (fst c)) cfg) (fun _ => 0) (fun _ => false).
