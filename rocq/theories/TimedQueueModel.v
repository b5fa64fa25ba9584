(** The timed command queue of the message passing library and the engine thread that serves it.
    Models score/message_passing/timed_command_queue.cpp and, of
    score/message_passing/unix_domain/unix_domain_engine.cpp, EnqueueCommand, the loop of RunOnThread,
    ProcessTimerQueue and the wake-up pipe. Times are nanoseconds of std::chrono::steady_clock. *)

From Coq Require Import List Bool Arith ZArith.
Import ListNotations.

(** TimedCommandQueueEntry: timed_command_queue_entry.h 27-43. [c_id] is the number of the registration (ghost; one
    entry object may be registered again after it ran). Owner 0 is nullptr. *)
Record cmd := mkC { c_id : nat; c_until : Z; c_owner : nat }.

(** TimePoint{}: the due time of an immediate command and the "queue is empty" result. timed_command_queue.cpp 22, 63 *)
Definition immediate : Z := 0%Z.

(** What can be observed: a registration, a command taken from the queue for execution (its callback is called by the
    same thread right after, timed_command_queue.cpp 55-60), a command removed without execution, begin and end of
    CleanUpOwner, the result of ProcessQueue. *)
Inductive ev :=
| EvReg (c : cmd) | EvRun (c : cmd) (now : Z) | EvRem (c : cmd)
| EvClean (o : nat) | EvCleaned (o : nat) | EvRet (now result : Z).

(** The engine thread: [PIdle] serving endpoints, [PLoop now] at the head of the loop of ProcessQueue, [PRun now c] in
    the callback of [c], [PTimeout r] ProcessQueue returned [r], [PSleep d] in poll() until [d] ([None]: no limit). *)
Inductive pc := PIdle | PLoop (now : Z) | PRun (now : Z) (c : cmd) | PTimeout (result : Z) | PSleep (deadline : option Z).

(** The queue is [seen ++ rest]; [seen] is what a CleanUpOwner in progress has passed. [writers]: threads between
    inserting a command and writing to the pipe; [pipe]: bytes in the pipe. *)
Record state := mkS {
  seen : list cmd; rest : list cmd; cleaning : option nat;
  at_ : pc; clock : Z; writers : nat; pipe : nat; next : nat; log : list ev }.

Definition queue (s : state) : list cmd := seen s ++ rest s.

Definition set_queue a b s := mkS a b (cleaning s) (at_ s) (clock s) (writers s) (pipe s) (next s) (log s).
Definition set_cleaning v s := mkS (seen s) (rest s) v (at_ s) (clock s) (writers s) (pipe s) (next s) (log s).
Definition set_at v s := mkS (seen s) (rest s) (cleaning s) v (clock s) (writers s) (pipe s) (next s) (log s).
Definition set_clock v s := mkS (seen s) (rest s) (cleaning s) (at_ s) v (writers s) (pipe s) (next s) (log s).
Definition set_wr v p s := mkS (seen s) (rest s) (cleaning s) (at_ s) (clock s) v p (next s) (log s).
Definition set_next v s := mkS (seen s) (rest s) (cleaning s) (at_ s) (clock s) (writers s) (pipe s) v (log s).
Definition say v s := mkS (seen s) (rest s) (cleaning s) (at_ s) (clock s) (writers s) (pipe s) (next s) (v :: log s).

(** The insertion of RegisterTimedEntry: timed_command_queue.cpp 36-41, before the first entry that is due later. *)
Fixpoint insert (c : cmd) (q : list cmd) : list cmd :=
  match q with
  | [] => [c]
  | d :: r => if Z.ltb (c_until c) (c_until d) then c :: q else d :: insert c r
  end.

(** The same while a CleanUpOwner has released the mutex in the middle (timed_command_queue.cpp 74-76): the iterator of
    remove_and_dispose_if points at the head of [rest], so what is inserted before it counts as seen. *)
Definition insert2 (c : cmd) (a b : list cmd) : list cmd * list cmd :=
  if existsb (fun d => Z.ltb (c_until c) (c_until d)) a then (insert c a, b)
  else match b with
       | [] => (a ++ [c], [])
       | d :: _ => if Z.ltb (c_until c) (c_until d) then (a ++ [c], b) else (a, insert c b)
       end.

(** RegisterTimedEntry 25-42, called by any thread through EnqueueCommand (unix_domain_engine.cpp 155-162) or
    CleanUpOwner (164-188); the pipe is written afterwards. An entry object that is already queued is not registered
    again (undefined behaviour in the intrusive list; see C66 for the client connection's command). *)
Definition register (u : Z) (o : nat) (s : state) : state :=
  let c := mkC (next s) u o in
  let s1 := match cleaning s with
            | None => set_queue (seen s) (insert c (rest s)) s
            | Some _ => let (a, b) := insert2 c (seen s) (rest s) in set_queue a b s
            end in
  say (EvReg c) (set_wr (S (writers s)) (pipe s) (set_next (S (next s)) s1)).

(** One turn of the loop of ProcessQueue 47-63. *)
Definition loop (now : Z) (s : state) : state :=
  match rest s with
  | [] => set_at (PTimeout immediate) (say (EvRet now immediate) s)
  | c :: r =>
      if Z.ltb now (c_until c) then set_at (PTimeout (c_until c)) (say (EvRet now (c_until c)) s)
      else set_at (PRun now c) (say (EvRun c now) (set_queue (seen s) r s))
  end.

(** One step of remove_and_dispose_if in CleanUpOwner 66-78: the entry at the iterator is passed or removed. In the code
    the mutex is released only after a removal; the model lets others in after every entry. *)
Definition clean_step (o : nat) (s : state) : state :=
  match rest s with
  | [] => say (EvCleaned o) (set_cleaning None (set_queue [] (seen s) s))
  | c :: r => if Nat.eqb (c_owner c) o then say (EvRem c) (set_queue (seen s) r s)
              else set_queue (seen s ++ [c]) r s
  end.

Definition ms : Z := 1000000%Z.
Definition int32_max : Z := 2147483647%Z.

(** The timeout ProcessTimerQueue computes: unix_domain_engine.cpp 346-356. duration_cast truncates towards zero. *)
Definition poll_timeout (result now : Z) : Z :=
  if Z.eqb result immediate then (-1)%Z
  else let d := Z.quot (result - now) ms in
       if Z.leb int32_max d then int32_max else (d + 1)%Z.

(** poll(): a negative timeout waits without limit. Reading the clock in line 350 and entering poll() in line 325 are
    one step; the time between them only adds to the sleep. *)
Definition poll_deadline (t now : Z) : option Z := if Z.ltb t 0 then None else Some (now + t * ms)%Z.

(** [LReg u o] some thread registers a command, [LPipe] it writes to the pipe; [LClean o] the engine thread begins
    CleanUpOwner (in a callback or while serving an endpoint), [LCleanStep]; [LProcess], [LLoop], [LReturn] the callback
    returns, [LPoll], [LPipeWake], [LTimerWake], [LInput] another descriptor becomes readable; [LTick n]. *)
Inductive label :=
| LReg (u : Z) (o : nat) | LPipe | LClean (o : nat) | LCleanStep
| LProcess | LLoop | LReturn | LPoll | LPipeWake | LTimerWake | LInput | LTick (n : Z).

Definition step (l : label) (s : state) : option state :=
  match l with
  | LReg u o => Some (register u o s)
  | LPipe => match writers s with 0 => None | S w => Some (set_wr w (S (pipe s)) s) end   (* 276-279 *)
  | LClean o =>
      match at_ s, cleaning s with
      | PIdle, None | PRun _ _, None => Some (say (EvClean o) (set_cleaning (Some o) s))
      | _, _ => None
      end
  | LCleanStep => match cleaning s with Some o => Some (clean_step o s) | None => None end
  | LProcess =>                                                    (* 344-345 *)
      match at_ s, cleaning s with PIdle, None => Some (set_at (PLoop (clock s)) s) | _, _ => None end
  | LLoop => match at_ s with PLoop now => Some (loop now s) | _ => None end
  | LReturn =>
      match at_ s, cleaning s with PRun now _, None => Some (set_at (PLoop now) s) | _, _ => None end
  | LPoll =>
      match at_ s with
      | PTimeout r => Some (set_at (PSleep (poll_deadline (poll_timeout r (clock s)) (clock s))) s)
      | _ => None
      end
  | LPipeWake =>                                                   (* 281-293: one byte per wake-up *)
      match at_ s, pipe s with PSleep _, S p => Some (set_at PIdle (set_wr (writers s) p s)) | _, _ => None end
  | LTimerWake =>
      match at_ s with
      | PSleep (Some d) => if Z.leb d (clock s) then Some (set_at PIdle s) else None
      | _ => None
      end
  | LInput => match at_ s with PSleep _ => Some (set_at PIdle s) | _ => None end
  | LTick n => if Z.leb 0 n then Some (set_clock (clock s + n)%Z s) else None
  end.

Definition init (t0 : Z) : state := mkS [] [] None PIdle t0 0 0 0 [].
