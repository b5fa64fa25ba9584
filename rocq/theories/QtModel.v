(** The timer of the QNX engine of the message passing library and the thread that serves it.
    Models, of score/message_passing/qnx_dispatch/qnx_dispatch_engine.cpp, EnqueueCommand (431-438), CleanUpOwner
    (440-464), WakeUpTimerQueue (518-523), ProcessCleanup (525-536) and ProcessTimerQueue (538-552), with the queue of
    score/message_passing/timed_command_queue.cpp and the thread of
    score/message_passing/qnx_dispatch/dispatch_thread_runner.cpp (Stop 122-138, RunOnThread 145-156, QuitPulseCallback
    166-179, SendQuitPulse 181-185).
    Times are nanoseconds of std::chrono::steady_clock since its epoch; the clock does not wrap (292 years).
    Not modelled: endpoints and their pulses, the server thread, the order of pulses by priority (the thread may take
    any pending pulse next), commands that unregister themselves. *)

From Coq Require Import List Bool Arith NArith ZArith.
Import ListNotations.

(** What an entry does when it runs: a command of a user, or the request of CleanUpOwner from another thread
    (qnx_dispatch_engine.cpp 454-460), which removes the entries of its owner and lets the caller continue. *)
Inductive kind := Command | CleanUp.

(** TimedCommandQueueEntry: timed_command_queue_entry.h. [e_id] is the number of the registration (ghost). *)
Record entry := mkE { e_id : nat; e_due : N; e_owner : nat; e_kind : kind }.

(** The thread of client_runner_: in dispatch_block ([TIdle]); in the loop of ProcessQueue with the time read at its
    start ([TLoop now]); ProcessQueue returned the time of the next entry and the timer is to be set ([TArm]); the loop
    of RunOnThread was left ([TEnded]). *)
Inductive thr := TIdle | TLoop (now : N) | TArm (next : N) | TEnded.

(** [timer]: the time at which the armed timer of the kernel sends its pulse. [pulses]: timer pulses (code
    kTimerPulseCode) in the channel. [qpulse]: a quit pulse is in the channel. [quit]: quit_flag_. [joining]: Stop
    waits for the thread. [stopped]: Stop returned. [returned]: CleanUpOwner calls (by the number of their entry) that
    returned. [ran]: (entry, time) of entries taken for execution, newest first. [removed]: entries removed without
    execution. Each is a ghost or a member of the engine, of its queue or of its runner. *)
Record st := mkS {
  queue : list entry; thread : thr; clock : N; timer : option N; pulses : nat; qpulse : bool; quit : bool;
  joining : bool; stopped : bool; next : nat; ran : list (entry * N); removed : list entry; returned : list nat }.

(** After the constructor, at a time [t]: no entry, no armed timer. qnx_dispatch_engine.cpp 115-118, 172;
    dispatch_thread_runner.cpp 64-77 *)
Definition init (t : N) : st :=
  mkS [] TIdle t None 0 false false false false 0 [] [] [].

(** The insertion of RegisterTimedEntry: timed_command_queue.cpp 36-41, before the first entry that is due later. *)
Fixpoint insert (e : entry) (q : list entry) : list entry :=
  match q with
  | [] => [e]
  | d :: r => if N.ltb (e_due e) (e_due d) then e :: q else d :: insert e r
  end.

(** The conversion of the distance to std::uint64_t: qnx_dispatch_engine.cpp 549 *)
Definition to_u64 (z : Z) : N := Z.to_N (Z.modulo z (2 ^ 64)).

(** TimerSettime with a relative time of [ns] nanoseconds and no interval: qnx_dispatch_engine.cpp 548-551. Zero disarms
    the timer (QNX documentation of TimerSettime). *)
Definition arm (now ns : N) : option N :=
  match ns with
  | N0 => None
  | _ => Some (now + ns)%N
  end.

(** The value of the timer for the time [nxt] of the next entry, at the time [now]: qnx_dispatch_engine.cpp 547-549 *)
Definition relative (nxt now : N) : N := to_u64 (Z.of_N nxt - Z.of_N now + 1).

Definition set_queue q s := mkS q (thread s) (clock s) (timer s) (pulses s) (qpulse s) (quit s) (joining s) (stopped s) (next s) (ran s) (removed s) (returned s).
Definition set_thread t s := mkS (queue s) t (clock s) (timer s) (pulses s) (qpulse s) (quit s) (joining s) (stopped s) (next s) (ran s) (removed s) (returned s).
Definition set_clock c s := mkS (queue s) (thread s) c (timer s) (pulses s) (qpulse s) (quit s) (joining s) (stopped s) (next s) (ran s) (removed s) (returned s).
Definition set_timer t s := mkS (queue s) (thread s) (clock s) t (pulses s) (qpulse s) (quit s) (joining s) (stopped s) (next s) (ran s) (removed s) (returned s).
Definition set_pulses p s := mkS (queue s) (thread s) (clock s) (timer s) p (qpulse s) (quit s) (joining s) (stopped s) (next s) (ran s) (removed s) (returned s).
Definition set_qpulse b s := mkS (queue s) (thread s) (clock s) (timer s) (pulses s) b (quit s) (joining s) (stopped s) (next s) (ran s) (removed s) (returned s).
Definition set_quit b s := mkS (queue s) (thread s) (clock s) (timer s) (pulses s) (qpulse s) b (joining s) (stopped s) (next s) (ran s) (removed s) (returned s).
Definition set_stop j d s := mkS (queue s) (thread s) (clock s) (timer s) (pulses s) (qpulse s) (quit s) j d (next s) (ran s) (removed s) (returned s).
Definition set_next n s := mkS (queue s) (thread s) (clock s) (timer s) (pulses s) (qpulse s) (quit s) (joining s) (stopped s) n (ran s) (removed s) (returned s).
Definition set_logs r m t s := mkS (queue s) (thread s) (clock s) (timer s) (pulses s) (qpulse s) (quit s) (joining s) (stopped s) (next s) r m t.

(** WakeUpTimerQueue: qnx_dispatch_engine.cpp 518-523. [ok]: MsgSendPulse succeeded; its result is ignored. *)
Definition wake_up (ok : bool) (s : st) : st := if ok then set_pulses (S (pulses s)) s else s.

(** Time passes. The timer sends its pulse once the clock has reached its time, and is disarmed then (no interval). *)
Definition pass (d : N) (s : st) : st :=
  let c := (clock s + d)%N in
  match timer s with
  | Some t => if N.leb t c then set_pulses (S (pulses s)) (set_timer None (set_clock c s)) else set_clock c s
  | None => set_clock c s
  end.

(** ProcessCleanup for the queue: timed_command_queue.cpp 66-78 (the mutex is released for the destructor of each
    callback; here the removal is one step). *)
Definition owned (o : nat) (e : entry) : bool := Nat.eqb (e_owner e) o.
Definition clean (o : nat) (s : st) : st :=
  set_logs (ran s) (filter (owned o) (queue s) ++ removed s) (returned s)
    (set_queue (filter (fun e => negb (owned o e)) (queue s)) s).

(** The steps of the system. [LReg]: EnqueueCommand by any thread, also from a command. [LCleanUp]: CleanUpOwner by
    another thread up to the wait (owner 0 is nullptr: 442-445). [LCleanUpHere]: CleanUpOwner called by a command
    (446-449). [LPass]: time passes. [LTake]: the thread takes a timer pulse and reads the clock (540). [LRun]: one
    round of the loop of ProcessQueue (timed_command_queue.cpp 47-62). [LArm]: the clock is read again and the timer is
    set (547-551). [LTakeQuit]: the thread takes the quit pulse. [LStop]: Stop sends the quit pulse and waits.
    [LJoined]: the thread ended and Stop returns. *)
Inductive lbl :=
| LReg (due : N) (owner : nat) (ok : bool) | LCleanUp (owner : nat) (ok : bool) | LCleanUpHere (owner : nat)
| LPass (d : N) | LTake | LRun | LArm | LTakeQuit | LStop (ok : bool) | LJoined.

(** The head of the loop of RunOnThread: dispatch_thread_runner.cpp 147 *)
Definition to_loop (s : st) : st := set_thread (if quit s then TEnded else TIdle) s.

(** One step; a label that is not enabled changes nothing. *)
Definition step (s : st) (l : lbl) : st :=
  match l with
  | LReg due o ok =>
      if stopped s then s (* the engine is gone *)
      else wake_up ok (set_next (S (next s)) (set_queue (insert (mkE (next s) due o Command) (queue s)) s))
  | LCleanUp o ok =>
      if stopped s || Nat.eqb o 0 then s
      else wake_up ok (set_next (S (next s)) (set_queue (insert (mkE (next s) 0 o CleanUp) (queue s)) s))
  | LCleanUpHere o =>
      match thread s with
      | TLoop _ => if Nat.eqb o 0 then s else clean o s
      | _ => s
      end
  | LPass d => pass d s
  | LTake =>
      match thread s, pulses s with
      | TIdle, S p => set_thread (TLoop (clock s)) (set_pulses p s)
      | _, _ => s
      end
  | LRun =>
      match thread s, queue s with
      | TLoop now, [] => to_loop s
      | TLoop now, e :: q =>
          if N.ltb now (e_due e) then set_thread (TArm (e_due e)) s
          else
            let s1 := set_logs ((e, clock s) :: ran s) (removed s) (returned s) (set_queue q s) in
            match e_kind e with
            | Command => s1
            | CleanUp => let s2 := clean (e_owner e) s1 in
                         set_logs (ran s2) (removed s2) (e_id e :: returned s2) s2
            end
      | _, _ => s
      end
  | LArm =>
      match thread s with
      | TArm nxt => to_loop (set_timer (arm (clock s) (relative nxt (clock s))) s)
      | _ => s
      end
  | LTakeQuit =>
      match thread s with
      | TIdle => if qpulse s then to_loop (set_quit true (set_qpulse false s)) else s
      | _ => s
      end
  | LStop ok =>
      if stopped s || joining s then s else set_stop true false (if ok then set_qpulse true s else s)
  | LJoined =>
      match thread s with
      | TEnded => if joining s then set_stop false true s else s
      | _ => s
      end
  end.

Definition run (s : st) (ls : list lbl) : st := fold_left step ls s.
