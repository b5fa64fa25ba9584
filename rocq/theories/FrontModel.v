(** The front end of service discovery and the two mutexes it shares with the search client: who may wait for
    whom, and how long the handler object given to StartFindService lives. Models
    score/mw/com/impl/service_discovery.cpp (FE) and the locking of
    score/mw/com/impl/bindings/lola/service_discovery/client/service_discovery_client.cpp (SD).
    Thread 0 is the worker thread of the client, every other thread belongs to the application. What is found
    is decided by the labels: SdModel.v models the answers, this file models locks and lifetimes.
    Simplified: an instance specifier resolves to one identifier or to none, which is what the runtime's
    configuration gives; all identifiers belong to one client. A step that takes a mutex also does the work
    that follows up to the next point at which other code can run, and releasing a mutex is a step of its own.
    The end of the process, during which the front end stops all searches (FE 48-60), is left out. *)
From Verif Require Import Base.

Definition mem (h : nat) (l : list nat) : bool := existsb (Nat.eqb h) l.
Definition del (h : nat) (l : list nat) : list nat := filter (fun x => negb (Nat.eqb h x)) l.
Definition upd {A} (f : nat -> A) (k : nat) (v : A) : nat -> A := fun x => if Nat.eqb x k then v else f x.

(** Where a thread is: the innermost frame first. *)
Inductive frame :=
| FUser                               (* application code, outside of the library *)
| FHandler (h : nat)                  (* inside the handler of search h; the caller owns a shared_ptr to it, FE 316-319 *)
| FDtor (h : nat)                     (* inside the destructor of what the handler of search h has captured *)
| FStart1 (h : nat) (r : bool)        (* FE 89/95, 146/152: handle drawn, about to lock container_mutex_; r: identifier found *)
| FStart3 (h : nat) (r : bool)        (* FE 104, 155: about to unlock container_mutex_ *)
| FStart4 (h : nat)                   (* SD 714: about to lock worker_mutex_ *)
| FStart6 (h : nat) (ok : bool)       (* SD 777 or 750: about to unlock worker_mutex_ *)
| FStop1 (h : nat) (i : bool)         (* FE 179: about to lock container_mutex_; i: called by a failing StartFindService, FE 118, 160 *)
| FStop3 (h : nat) (i b : bool)       (* FE 189: about to unlock container_mutex_; b: there was an identifier *)
| FStop4 (h : nat) (i : bool)         (* SD 274: about to lock worker_mutex_ *)
| FStop6 (h : nat) (i : bool)         (* SD 276: about to unlock worker_mutex_ *)
| FLoop                               (* SD 380: the worker thread is about to lock worker_mutex_ for a batch of events *)
| FEv.                                (* SD 517-597: the worker thread calls the handlers of a batch *)

Inductive mutex := Cont | Work.  (* ServiceDiscovery::container_mutex_, ServiceDiscoveryClient::worker_mutex_ *)

Record st := mkSt {
  next : nat;              (* next_free_uid_, FE 265. It does not wrap around here: 2^64 searches *)
  stored : list nat;       (* keys of user_callbacks_ *)
  insts : list nat;        (* keys of handle_to_instances_ *)
  regs : list nat;         (* keys of search_requests_ *)
  obs : list nat;          (* obsolete_search_requests_ *)
  refs : nat -> nat;       (* shared_ptr to the handler owned by running calls, FE 316 *)
  mc : option (nat * nat); (* container_mutex_: owner and depth; both mutexes are recursive *)
  mw : option (nat * nat); (* worker_mutex_ *)
  stk : nat -> list frame;
  known : list nat;        (* handles the application has got: returned, or passed to the handler *)
  unres : list nat;        (* history: searches started with a specifier without identifier *)
  stops : list nat;        (* history: handles for which the application called StopFindService *)
  failed : list nat;       (* history: searches whose StartFindService returned an error *)
  called : list nat;       (* history: handler calls, newest first *)
  gone : list nat          (* history: handler objects whose destruction has begun *)
}.

Definition init : st :=
  mkSt 0 [] [] [] [] (fun _ => 0) None None (fun t => match t with 0 => [FLoop] | _ => [FUser] end) [] [] [] [] [] [].

Definition set_stk (s : st) (t : nat) (fs : list frame) : st :=
  mkSt (next s) (stored s) (insts s) (regs s) (obs s) (refs s) (mc s) (mw s) (upd (stk s) t fs) (known s) (unres s)
    (stops s) (failed s) (called s) (gone s).
Definition set_mc (s : st) (m : option (nat * nat)) : st :=
  mkSt (next s) (stored s) (insts s) (regs s) (obs s) (refs s) m (mw s) (stk s) (known s) (unres s)
    (stops s) (failed s) (called s) (gone s).
Definition set_mw (s : st) (m : option (nat * nat)) : st :=
  mkSt (next s) (stored s) (insts s) (regs s) (obs s) (refs s) (mc s) m (stk s) (known s) (unres s)
    (stops s) (failed s) (called s) (gone s).

(** std::recursive_mutex (service_discovery.h 113, service_discovery_client.h 216): None if the thread has to wait. *)
Definition lock (m : option (nat * nat)) (t : nat) : option (option (nat * nat)) :=
  match m with
  | None => Some (Some (t, 1))
  | Some (o, n) => if Nat.eqb o t then Some (Some (t, S n)) else None
  end.
(** None: the calling thread does not own the mutex, which would be undefined behaviour. *)
Definition unlock (m : option (nat * nat)) (t : nat) : option (option (nat * nat)) :=
  match m with
  | Some (o, S n) => if Nat.eqb o t then Some (match n with 0 => None | _ => Some (o, n) end) else None
  | _ => None
  end.

(** What a thread may do next. *)
Inductive action :=
| AStart (r : bool)       (* user code calls StartFindService; r: the specifier resolves to an identifier *)
| AStop (h : nat)         (* user code calls StopFindService *)
| ARet                    (* a handler or a destructor returns *)
| AGo                     (* the library goes on *)
| AReg (ok found : bool)  (* the client registers a search: did the crawl work, did it find something (SD 746-767) *)
| ACall (h : nat).        (* the worker thread calls the handler of search h *)

(** The lambda given to the client, FE 315-320: weak_ptr::lock, and if the handler object still lives, the call.
    below: the rest of the calling thread's stack. The call hands out the handle. *)
Definition invoke (s : st) (t h : nat) (below : list frame) : st :=
  if mem h (stored s) || negb (Nat.eqb (refs s h) 0)
  then mkSt (next s) (stored s) (insts s) (regs s) (obs s) (upd (refs s) h (S (refs s h))) (mc s) (mw s)
         (upd (stk s) t (FHandler h :: below)) (h :: known s) (unres s) (stops s) (failed s) (h :: called s) (gone s)
  else set_stk s t below.

(** A call of the handler returns, FE 319: the shared_ptr of the call is dropped; the last one destroys the handler. *)
Definition drop (s : st) (t h : nat) (below : list frame) : st :=
  let n := refs s h - 1 in
  let last := negb (mem h (stored s)) && Nat.eqb n 0 in
  mkSt (next s) (stored s) (insts s) (regs s) (obs s) (upd (refs s) h n) (mc s) (mw s)
    (upd (stk s) t (if last then FDtor h :: below else below)) (known s) (unres s) (stops s) (failed s) (called s)
    (if last then h :: gone s else gone s).

(** FE 96-103 and 153-154, under container_mutex_. *)
Definition store (s : st) (t h : nat) (r : bool) (below : list frame) : st :=
  mkSt (next s) (h :: stored s) (if r then h :: insts s else insts s) (regs s) (obs s) (refs s) (mc s) (mw s)
    (upd (stk s) t (FStart3 h r :: below)) (known s) (unres s) (stops s) (failed s) (called s) (gone s).

(** FE 180-188, under container_mutex_: the handler object is destroyed here unless a call of it is running. *)
Definition erase (s : st) (t h : nat) (i : bool) (below : list frame) : st :=
  let last := mem h (stored s) && Nat.eqb (refs s h) 0 in
  let fs := FStop3 h i (mem h (insts s)) :: below in
  mkSt (next s) (del h (stored s)) (del h (insts s)) (regs s) (obs s) (refs s) (mc s) (mw s)
    (upd (stk s) t (if last then FDtor h :: fs else fs)) (known s) (unres s) (stops s) (failed s) (called s)
    (if last then h :: gone s else gone s).

(** StartFindService returns: the handle, FE 132, 170. *)
Definition returned (s : st) (t h : nat) (below : list frame) : st :=
  mkSt (next s) (stored s) (insts s) (regs s) (obs s) (refs s) (mc s) (mw s) (upd (stk s) t below) (h :: known s) (unres s)
    (stops s) (failed s) (called s) (gone s).
(** StopFindService returns; if it was called by a failing StartFindService, that returns its error, FE 128, 170. *)
Definition stop_returned (s : st) (t h : nat) (i : bool) (below : list frame) : st :=
  mkSt (next s) (stored s) (insts s) (regs s) (obs s) (refs s) (mc s) (mw s) (upd (stk s) t below) (known s) (unres s)
    (stops s) (if i then h :: failed s else failed s) (called s) (gone s).

(** SD 716-777, under worker_mutex_. *)
Definition register (s : st) (t h : nat) (ok found : bool) (below : list frame) : st :=
  if ok then
    let s1 := mkSt (next s) (stored s) (insts s) (h :: regs s) (obs s) (refs s) (mc s) (mw s) (stk s) (known s) (unres s)
                (stops s) (failed s) (called s) (gone s) in
    if found then invoke s1 t h (FStart6 h true :: below) else set_stk s1 t (FStart6 h true :: below)
  else set_stk s t (FStart6 h false :: below).

(** SD 275. *)
Definition obsolete (s : st) (t h : nat) (i : bool) (below : list frame) : st :=
  mkSt (next s) (stored s) (insts s) (regs s) (h :: obs s) (refs s) (mc s) (mw s) (upd (stk s) t (FStop6 h i :: below))
    (known s) (unres s) (stops s) (failed s) (called s) (gone s).

(** SD 322-329: the obsolete searches are forgotten. *)
Definition transfer (s : st) (t : nat) (below : list frame) : st :=
  mkSt (next s) (stored s) (insts s) (filter (fun h => negb (mem h (obs s))) (regs s)) [] (refs s) (mc s) (mw s)
    (upd (stk s) t (FEv :: below)) (known s) (unres s) (stops s) (failed s) (called s) (gone s).

Definition user (f : frame) : bool := match f with FUser | FHandler _ | FDtor _ => true | _ => false end.

(** User code enters the library. *)
Definition enter_start (s : st) (t : nat) (r : bool) (fs : list frame) : st :=
  mkSt (S (next s)) (stored s) (insts s) (regs s) (obs s) (refs s) (mc s) (mw s)
    (upd (stk s) t (FStart1 (next s) r :: fs)) (known s) (if r then unres s else next s :: unres s)
    (stops s) (failed s) (called s) (gone s).
Definition enter_stop (s : st) (t h : nat) (fs : list frame) : st :=
  mkSt (next s) (stored s) (insts s) (regs s) (obs s) (refs s) (mc s) (mw s) (upd (stk s) t (FStop1 h false :: fs))
    (known s) (unres s) (h :: stops s) (failed s) (called s) (gone s).

(** The library's own steps, by the innermost frame; r: the rest of the stack. *)
Definition lib_step (s : st) (t : nat) (f : frame) (r : list frame) (a : action) : option st :=
  match f, a with
  | FHandler h, ARet => Some (drop s t h r)
  | FDtor h, ARet => Some (set_stk s t r)
  | FStart1 h b, AGo => option_map (fun m => store (set_mc s m) t h b r) (lock (mc s) t)
  | FStart3 h b, AGo =>
      option_map (fun m => if b then set_stk (set_mc s m) t (FStart4 h :: r) else returned (set_mc s m) t h r) (unlock (mc s) t)
  | FStart4 h, AReg ok found => option_map (fun m => register (set_mw s m) t h ok found r) (lock (mw s) t)
  | FStart6 h ok, AGo =>
      option_map (fun m => if ok then returned (set_mw s m) t h r else set_stk (set_mw s m) t (FStop1 h true :: r)) (unlock (mw s) t)
  | FStop1 h i, AGo => option_map (fun m => erase (set_mc s m) t h i r) (lock (mc s) t)
  | FStop3 h i b, AGo =>
      option_map (fun m => if b then set_stk (set_mc s m) t (FStop4 h i :: r) else stop_returned (set_mc s m) t h i r) (unlock (mc s) t)
  | FStop4 h i, AGo => option_map (fun m => obsolete (set_mw s m) t h i r) (lock (mw s) t)
  | FStop6 h i, AGo => option_map (fun m => stop_returned (set_mw s m) t h i r) (unlock (mw s) t)
  | FLoop, AGo => option_map (fun m => transfer (set_mw s m) t r) (lock (mw s) t)
  | FEv, AGo => option_map (fun m => set_stk (set_mw s m) t (FLoop :: r)) (unlock (mw s) t)
  | FEv, ACall h => if mem h (regs s) && negb (mem h (obs s)) then Some (invoke s t h (FEv :: r)) else None
  | _, _ => None
  end.

(** One step of thread t. A handle can be given to StopFindService once the application has got it.
    CallHandlers (SD 517-597) calls each handler at most once per set of events and only if its result has
    changed: here any number of calls in any order, which allows more. *)
Definition step (s : st) (t : nat) (a : action) : option st :=
  match stk s t with
  | [] => None
  | f :: r =>
      match a with
      | AStart b => if user f then Some (enter_start s t b (f :: r)) else None
      | AStop h => if user f && mem h (known s) then Some (enter_stop s t h (f :: r)) else None
      | _ => lib_step s t f r a
      end
  end.

Fixpoint run (s : st) (ls : list (nat * action)) : option st :=
  match ls with
  | [] => Some s
  | (t, a) :: ls => match step s t a with Some s' => run s' ls | None => None end
  end.
