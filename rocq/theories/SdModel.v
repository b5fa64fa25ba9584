(** Service discovery of one consumer process: StartFindService, StopFindService and FindService over
    flag files and inotify. Models
    score/mw/com/impl/bindings/lola/service_discovery/client/service_discovery_client.cpp (SD),
    flag_file.cpp (FF), flag_file_crawler.cpp (FC) and known_instances_container.cpp (KC).
    One service id: every map of the code is keyed by it, and searches of different services share no entry.
    The kernel's side: a directory that is watched keeps its watch descriptor, a removed descriptor is
    never given out again, and each change of a watched directory appends one event to one queue.
    The overflow of that queue, which the code answers by terminating (SD 405-412), is left out, and so
    is anybody removing directories (SD 474-481). *)
From Verif Require Import Base.

Definition inst := nat.
Definition handle := nat.   (* FindServiceHandle *)
Definition wd := nat.       (* os::InotifyWatchDescriptor *)
Definition dir := option inst.  (* None: the service directory; Some i: the directory of instance i *)

Definition dir_eqb (a b : dir) : bool :=
  match a, b with
  | None, None => true
  | Some i, Some j => i =? j
  | _, _ => false
  end.

(** Quality levels: true is ASIL-B, false is QM. *)
Definition pair_eqb (a b : inst * bool) : bool := (fst a =? fst b) && Bool.eqb (snd a) (snd b).
Definition has (p : inst * bool) (l : list (inst * bool)) : bool := existsb (pair_eqb p) l.
Definition mem (n : nat) (l : list nat) : bool := existsb (Nat.eqb n) l.

(** * The file system and inotify *)

Inductive ev :=
| EMkdir (i : inst)     (* IN_CREATE in the service directory *)
| ECreate (q : bool)    (* IN_CREATE of a flag file in an instance directory *)
| EDelete (q : bool)    (* IN_DELETE of a flag file *)
| EIgnored.             (* IN_IGNORED: the watch was removed *)

(** The file name carries the quality level (FF 50-61), read back by FC 260-271. One flag file per instance
    and quality level: FlagFile::Make removes the others first (FF 95-120), and one process at a time
    provides an instance. *)
Record kernel := mkK {
  dirs : list inst;
  files : list (inst * bool);
  kwd : dir -> option wd;
  nxt : wd;
  queue : list (wd * ev);
}.

Definition emit (k : kernel) (d : dir) (e : ev) : list (wd * ev) :=
  match kwd k d with Some w => [(w, e)] | None => [] end.

Definition mkdir (k : kernel) (i : inst) : kernel :=
  if mem i (dirs k) then k
  else mkK (i :: dirs k) (files k) (kwd k) (nxt k) (queue k ++ emit k None (EMkdir i)).

Definition create (k : kernel) (i : inst) (q : bool) : kernel :=
  mkK (dirs k) ((i, q) :: files k) (kwd k) (nxt k) (queue k ++ emit k (Some i) (ECreate q)).

Definition delete (k : kernel) (i : inst) (q : bool) : kernel :=
  mkK (dirs k) (filter (fun p => negb (pair_eqb (i, q) p)) (files k)) (kwd k) (nxt k)
      (queue k ++ emit k (Some i) (EDelete q)).

(** FC 325-368: creates the search path (FF 244-283), then watches it; creating and watching are one
    step here, what happens between them is seen by the later check. *)
Definition add_watch (k0 : kernel) (d : dir) : kernel * wd :=
  let k := match d with Some i => mkdir k0 i | None => k0 end in
  match kwd k d with
  | Some w => (k, w)
  | None => (mkK (dirs k) (files k) (fun d' => if dir_eqb d d' then Some (nxt k) else kwd k d')
                 (S (nxt k)) (queue k), nxt k)
  end.

Definition remove_watch (k : kernel) (d : dir) (w : wd) : kernel :=
  mkK (dirs k) (files k) (fun d' => if dir_eqb d d' then None else kwd k d') (nxt k) (queue k ++ [(w, EIgnored)]).

(** * The client's tables *)

Record watch := mkW { w_dir : dir; w_hs : list handle }.                  (* SD.h 88-98 *)
Record search := mkS { s_dir : dir; s_q : bool; s_wds : list wd; s_prev : list inst }.  (* SD.h 72-86 *)

Record client := mkC {
  searches : handle -> option search;
  watches : wd -> option watch;
  watched : dir -> option (option wd * list wd);   (* watched_identifiers_, SD.h 100-110 *)
  known : list (inst * bool);                      (* known_instances_ *)
  obsolete : list handle;                          (* obsolete_search_requests_ *)
  log : list (handle * list inst);                 (* calls of users' handlers, newest first *)
}.

Definition set_search (c : client) (h : handle) (s : option search) : client :=
  mkC (fun h' => if h =? h' then s else searches c h') (watches c) (watched c) (known c) (obsolete c) (log c).
Definition set_watch (c : client) (w : wd) (x : option watch) : client :=
  mkC (searches c) (fun w' => if w =? w' then x else watches c w') (watched c) (known c) (obsolete c) (log c).
Definition set_watched (c : client) (d : dir) (x : option (option wd * list wd)) : client :=
  mkC (searches c) (watches c) (fun d' => if dir_eqb d d' then x else watched c d') (known c) (obsolete c) (log c).
Definition set_known (c : client) (l : list (inst * bool)) : client :=
  mkC (searches c) (watches c) (watched c) l (obsolete c) (log c).
Definition set_obsolete (c : client) (l : list handle) : client :=
  mkC (searches c) (watches c) (watched c) (known c) l (log c).
Definition call (c : client) (h : handle) (l : list inst) : client :=
  mkC (searches c) (watches c) (watched c) (known c) (obsolete c) ((h, l) :: log c).

(** KC 20-56 *)
Definition insert (p : inst * bool) (l : list (inst * bool)) : list (inst * bool) := if has p l then l else p :: l.
Definition remove (p : inst * bool) (l : list (inst * bool)) : list (inst * bool) := filter (fun x => negb (pair_eqb p x)) l.

(** KC 92-119 *)
Definition merge (found l : list (inst * bool)) : list (inst * bool) := fold_right insert l found.

(** KC 58-90 with SD 46-77 *)
Definition handles (l : list (inst * bool)) (d : dir) (q : bool) : list inst :=
  match d with
  | Some i => if has (i, q) l then [i] else []
  | None => map fst (filter (fun p => Bool.eqb (snd p) q) l)
  end.

Definition same_set (a b : list inst) : bool := forallb (fun x => mem x b) a && forallb (fun x => mem x a) b.

Definition add (n : nat) (l : list nat) : list nat := if mem n l then l else n :: l.
Definition del (n : nat) (l : list nat) : list nat := filter (fun x => negb (n =? x)) l.

(** SD 599-623 *)
Definition store_watch (c : client) (w : wd) (d : dir) : client :=
  let c1 := match watches c w with Some _ => c | None => set_watch c w (Some (mkW d [])) end in
  let c2 := match watched c1 d with Some _ => c1 | None => set_watched c1 d (Some (Some w, [])) end in
  match d with
  | None => c2
  | Some _ =>
      match watched c2 None with
      | None => set_watched c2 None (Some (None, [w]))
      | Some (m, ch) => set_watched c2 None (Some (m, add w ch))
      end
  end.

(** SD 671-683; [None] is the precondition that both exist. *)
Definition link (c : client) (w : wd) (h : handle) : option client :=
  match watches c w, searches c h with
  | Some x, Some s =>
      Some (set_search (set_watch c w (Some (mkW (w_dir x) (add h (w_hs x))))) h
                       (Some (mkS (s_dir s) (s_q s) (add w (s_wds s)) (s_prev s))))
  | _, _ => None
  end.

(** SD 685-701; [None] is one of its assertions. *)
Definition unlink (c : client) (w : wd) (h : handle) : option client :=
  match watches c w, searches c h with
  | Some x, Some s =>
      if mem h (w_hs x) && mem w (s_wds s)
      then Some (set_search (set_watch c w (Some (mkW (w_dir x) (del h (w_hs x))))) h
                            (Some (mkS (s_dir s) (s_q s) (del w (s_wds s)) (s_prev s))))
      else None
  | _, _ => None
  end.

(** SD 625-669 *)
Definition erase_watch (c : client) (w : wd) (d : dir) : client :=
  let c1 := match d with
            | Some _ =>
                let c' := set_watched c d None in
                match watched c' None with
                | Some (m, ch) => set_watched c' None (Some (m, del w ch))
                | None => c'
                end
            | None =>
                match watched c None with
                | Some (_, ch) => set_watched c None (Some (None, ch))
                | None => c
                end
            end in
  set_watch c1 w None.

(** SD 344-368: the watches of one obsolete search. *)
Fixpoint transfer_watches (k : kernel) (c : client) (h : handle) (ws : list wd) : option (kernel * client) :=
  match ws with
  | [] => Some (k, c)
  | w :: r =>
      match watches c w with
      | None => transfer_watches k c h r
      | Some _ =>
          match unlink c w h with
          | None => None
          | Some c1 =>
              match watches c1 w with
              | Some (mkW d []) =>
                  let c2 := match d with
                            | Some i => set_known c1 (remove (i, false) (remove (i, true) (known c1)))
                            | None => c1
                            end in
                  transfer_watches (remove_watch k d w) (erase_watch c2 w d) h r
              | _ => transfer_watches k c1 h r
              end
          end
      end
  end.

(** SD 331-371 *)
Definition transfer_one (k : kernel) (c : client) (h : handle) : option (kernel * client) :=
  match searches c h with
  | None => Some (k, c)
  | Some s =>
      match transfer_watches k c h (s_wds s) with
      | None => None
      | Some (k', c') => Some (k', set_search c' h None)
      end
  end.

(** SD 322-329 *)
Fixpoint transfer_all (k : kernel) (c : client) (hs : list handle) : option (kernel * client) :=
  match hs with
  | [] => Some (k, set_obsolete c [])
  | h :: r => match transfer_one k c h with None => None | Some (k', c') => transfer_all k' c' r end
  end.

(** SD 310-314 *)
Fixpoint store_links (c : client) (h : handle) (ws : list (wd * dir)) : option client :=
  match ws with
  | [] => Some c
  | (w, d) :: r => match link (store_watch c w d) w h with None => None | Some c' => store_links c' h r end
  end.

(** SD 289-320 and 759-775: the request is stored, then its handler called if there is anything to tell. *)
Definition transfer_new (c : client) (h : handle) (d : dir) (q : bool) (ws : list (wd * dir))
           (found : list (inst * bool)) (hs : list inst) : option client :=
  match searches c h with
  | Some _ => None
  | None =>
      match store_links (set_search c h (Some (mkS d q [] hs))) h ws with
      | None => None
      | Some c1 =>
          let c2 := set_known c1 (merge found (known c1)) in
          Some (match hs with [] => c2 | _ => call c2 h hs end)
      end
  end.

(** * Threads *)

(** A crawl under way: for a search being started, or for an instance directory just created. *)
Inductive who :=
| Start (h : handle) (d : dir) (q : bool)
| Found (w0 : wd) (i : inst).

Inductive phase :=
| PMain                               (* FC 154-166 *)
| PList                               (* FC 177-183, 279-317; the listing is taken in one step *)
| PAdd (todo : list inst)             (* FC 185-200 *)
| PCheck (todo : list (inst * bool)). (* FC 42-103 *)

Record crawl := mkCr { c_who : who; c_phase : phase; c_wds : list (wd * dir); c_insts : list inst; c_found : list (inst * bool) }.

Definition crawl_dir (x : who) : dir := match x with Start _ d _ => d | Found _ i => Some i end.

Definition pairs (l : list inst) : list (inst * bool) := flat_map (fun i => [(i, true); (i, false)]) l.

Inductive worker :=
| WIdle
| WGot (b : list (wd * ev))                                   (* read, waiting for the lock, SD 130 *)
| WDel (r : list (wd * ev)) (imp : list handle) (cre : list (wd * ev))  (* SD 449-483 *)
| WCallD (keys : list handle) (cre : list (wd * ev))          (* SD 485, 517-597 *)
| WCre (r : list (wd * ev)) (imp : list handle)               (* SD 488-512 *)
| WCallC (keys : list handle).                                (* SD 514 *)

Record st := mkSt { ker : kernel; cl : client; wrk : worker; crw : option crawl; used : list handle; dead : bool }.

Definition init : st :=
  mkSt (mkK [] [] (fun _ => None) 0 [])
       (mkC (fun _ => None) (fun _ => None) (fun _ => None) [] [] []) WIdle None [] false.

Definition is_del (e : wd * ev) : bool := match snd e with EDelete _ | EIgnored => true | _ => false end.
Definition is_cre (e : wd * ev) : bool := match snd e with EMkdir _ | ECreate _ => true | _ => false end.

(** The recursive lock is free for an application thread, or held by the worker while it calls handlers,
    which may start and stop searches themselves. *)
Definition may_enter (s : st) : bool :=
  match crw s, wrk s with
  | None, WIdle | None, WGot _ | None, WCallD _ _ | None, WCallC _ => true
  | _, _ => false
  end.

(** SD 529-592 for one search *)
Definition call_handler (c : client) (h : handle) : client :=
  match searches c h with
  | None => c
  | Some x =>
      if mem h (obsolete c) then c
      else
        let l := handles (known c) (s_dir x) (s_q x) in
        if same_set (s_prev x) l then c
        else call (set_search c h (Some (mkS (s_dir x) (s_q x) (s_wds x) l))) h l
  end.

Definition die (s : st) : st := mkSt (ker s) (cl s) (wrk s) (crw s) (used s) true.

(** Links of the new instance watch with all searches of the service watch, SD 808-813. *)
Fixpoint link_all (c : client) (w : wd) (hs : list handle) : option client :=
  match hs with
  | [] => Some c
  | h :: r => match link c w h with None => None | Some c' => link_all c' w r end
  end.

Definition finish_crawl (s : st) (x : crawl) : st :=
  match c_who x with
  | Start h d q =>
      match transfer_new (cl s) h d q (c_wds x) (c_found x) (handles (c_found x) d q) with
      | None => die s
      | Some c => mkSt (ker s) c (wrk s) None (used s) (dead s)
      end
  | Found w0 i =>                                              (* SD 804-816 *)
      match c_wds x, watches (cl s) w0 with
      | [(w, d)], Some x0 =>
          match link_all (store_watch (cl s) w d) w (w_hs x0) with
          | None => die s
          | Some c => mkSt (ker s) (set_known c (merge (c_found x) (known c))) (wrk s) None (used s) (dead s)
          end
      | _, _ => die s
      end
  end.

Inductive label :=
| FsMkdir (i : inst)
| FsCreate (i : inst) (q : bool)
| FsDelete (i : inst) (q : bool)
| StartFind (h : handle) (d : dir) (q : bool)
| StopFind (h : handle)
| CrawlStep
| CrawlFail (h : handle)
| CrawlAgain
| FoundFail
| Read (n : nat)
| WStep
| WHandle (h : handle).

(** The watches a search that is already running hands to a further one, SD 731-742. *)
Fixpoint dirs_of (c : client) (ws : list wd) : option (list (wd * dir)) :=
  match ws with
  | [] => Some []
  | w :: r =>
      match watches c w, dirs_of c r with
      | Some x, Some l => Some ((w, w_dir x) :: l)
      | _, _ => None
      end
  end.

Definition set_ker (s : st) (k : kernel) : st := mkSt k (cl s) (wrk s) (crw s) (used s) (dead s).
Definition set_cl (s : st) (c : client) : st := mkSt (ker s) c (wrk s) (crw s) (used s) (dead s).
Definition set_wrk (s : st) (w : worker) : st := mkSt (ker s) (cl s) w (crw s) (used s) (dead s).
Definition set_crw (s : st) (x : option crawl) : st := mkSt (ker s) (cl s) (wrk s) x (used s) (dead s).

Definition crawl_step (s : st) (x : crawl) : st :=
  match c_phase x with
  | PMain =>
      let (k, w) := add_watch (ker s) (crawl_dir (c_who x)) in
      let ws := [(w, crawl_dir (c_who x))] in
      match crawl_dir (c_who x) with
      | Some i => set_crw (set_ker s k) (Some (mkCr (c_who x) (PCheck (pairs [i])) ws [i] []))
      | None => set_crw (set_ker s k) (Some (mkCr (c_who x) PList ws [] []))
      end
  | PList => set_crw s (Some (mkCr (c_who x) (PAdd (dirs (ker s))) (c_wds x) (dirs (ker s)) []))
  | PAdd (i :: r) =>
      let (k, w) := add_watch (ker s) (Some i) in
      set_crw (set_ker s k) (Some (mkCr (c_who x) (PAdd r) ((w, Some i) :: c_wds x) (c_insts x) []))
  | PAdd [] => set_crw s (Some (mkCr (c_who x) (PCheck (pairs (c_insts x))) (c_wds x) (c_insts x) []))
  | PCheck (p :: r) =>
      set_crw s (Some (mkCr (c_who x) (PCheck r) (c_wds x) (c_insts x)
                            (if has p (files (ker s)) then insert p (c_found x) else c_found x)))
  | PCheck [] => finish_crawl s x
  end.

Definition worker_step (s : st) : option st :=
  match wrk s with
  | WIdle => None
  | WGot b =>                                                  (* SD 380-446 *)
      match transfer_all (ker s) (cl s) (obsolete (cl s)) with
      | None => Some (die s)
      | Some (k, c) => Some (mkSt k c (WDel (filter is_del b) [] (filter is_cre b)) (crw s) (used s) (dead s))
      end
  | WDel [] imp cre => Some (set_wrk s (WCallD imp cre))
  | WDel ((w, e) :: r) imp cre =>
      match watches (cl s) w with
      | None => Some (set_wrk s (WDel r imp cre))
      | Some x =>
          match e, w_dir x with
          | EDelete q, Some i =>
              Some (set_wrk (set_cl s (set_known (cl s) (remove (i, q) (known (cl s))))) (WDel r (w_hs x ++ imp) cre))
          | EDelete q, None => Some (die s)
          | _, _ => Some (set_wrk s (WDel r imp cre))
          end
      end
  | WCallD [] cre => Some (set_wrk s (WCre cre []))
  | WCallD _ _ => None
  | WCre [] imp => Some (set_wrk s (WCallC imp))
  | WCre ((w, e) :: r) imp =>
      match watches (cl s) w with
      | None => Some (set_wrk s (WCre r imp))
      | Some x =>
          match e, w_dir x with
          | ECreate q, Some i =>
              Some (set_wrk (set_cl s (set_known (cl s) (insert (i, q) (known (cl s))))) (WCre r (w_hs x ++ imp)))
          | EMkdir i, None =>
              Some (set_crw (set_wrk s (WCre r (w_hs x ++ imp))) (Some (mkCr (Found w i) PMain [] [] [])))
          | _, _ => Some (set_wrk s (WCre r (w_hs x ++ imp)))
          end
      end
  | WCallC [] => Some (set_wrk s WIdle)
  | WCallC _ => None
  end.

Definition step (s : st) (l : label) : option st :=
  if dead s then None else
  match l with
  | FsMkdir i => Some (set_ker s (mkdir (ker s) i))
  | FsCreate i q =>
      if mem i (dirs (ker s)) && negb (has (i, q) (files (ker s))) then Some (set_ker s (create (ker s) i q)) else None
  | FsDelete i q => if has (i, q) (files (ker s)) then Some (set_ker s (delete (ker s) i q)) else None
  | StartFind h d q =>                                         (* SD 707-757 *)
      if may_enter s && negb (mem h (used s)) then
        let s1 := mkSt (ker s) (cl s) (wrk s) (crw s) (h :: used s) (dead s) in
        match watched (cl s) d with
        | Some (Some w, ch) =>
            match dirs_of (cl s) (w :: ch) with
            | None => Some (die s1)
            | Some ws =>
                match transfer_new (cl s) h d q ws [] (handles (known (cl s)) d q) with
                | None => Some (die s1)
                | Some c => Some (set_cl s1 c)
                end
            end
        | _ => Some (set_crw s1 (Some (mkCr (Start h d q) PMain [] [] [])))
        end
      else None
  | StopFind h =>                                              (* SD 267-282 *)
      if may_enter s then Some (set_cl s (set_obsolete (cl s) (add h (obsolete (cl s))))) else None
  | CrawlStep => match crw s with Some x => Some (crawl_step s x) | None => None end
  | CrawlFail h =>                                             (* SD 748-751: the search is not started *)
      match crw s with
      | Some (mkCr (Start h' _ _) _ _ _ _) => if h =? h' then Some (set_crw s None) else None
      | _ => None
      end
  | CrawlAgain =>                                              (* FC 221-237; the limit of retries is left out *)
      match crw s with
      | Some (mkCr y _ _ _ _) => Some (set_crw s (Some (mkCr y PMain [] [] [])))
      | None => None
      end
  | FoundFail =>                                               (* SD 800-802: the assertion *)
      match crw s with
      | Some (mkCr (Found _ _) _ _ _ _) => Some (die s)
      | _ => None
      end
  | Read n =>
      match wrk s with
      | WIdle => Some (mkSt (mkK (dirs (ker s)) (files (ker s)) (kwd (ker s)) (nxt (ker s)) (skipn n (queue (ker s))))
                            (cl s) (WGot (firstn n (queue (ker s)))) (crw s) (used s) (dead s))
      | _ => None
      end
  | WStep => match crw s with Some _ => None | None => worker_step s end
  | WHandle h =>
      match crw s, wrk s with
      | None, WCallD keys cre => if mem h keys then Some (set_wrk (set_cl s (call_handler (cl s) h)) (WCallD (del h keys) cre)) else None
      | None, WCallC keys => if mem h keys then Some (set_wrk (set_cl s (call_handler (cl s) h)) (WCallC (del h keys))) else None
      | _, _ => None
      end
  end.

(** * FindService *)

(** FindService (SD 912-931, FC 118-128 and 144-206 with add_watch = false): a crawl that leaves no watches.
    The tables of the client are not used, and the lock it takes does not hold up providers: its steps
    interleave with changes of the file system only. *)
Inductive fphase :=
| FList                                                        (* FC 169-183 *)
| FCheck (todo found : list (inst * bool))                     (* FC 204 *)
| FDone (l : list inst).

Inductive flabel :=
| FFs (l : label)     (* somebody changes the file system *)
| FStep.

Definition fs_step (k : kernel) (l : label) : option kernel :=
  match l with
  | FsMkdir i => Some (mkdir k i)
  | FsCreate i q => if mem i (dirs k) && negb (has (i, q) (files k)) then Some (create k i q) else None
  | FsDelete i q => if has (i, q) (files k) then Some (delete k i q) else None
  | _ => None
  end.

Definition find_step (d : dir) (q : bool) (s : kernel * fphase) (l : flabel) : option (kernel * fphase) :=
  match l, snd s with
  | FFs l', _ => match fs_step (fst s) l' with Some k => Some (k, snd s) | None => None end
  | FStep, FList => Some (fst s, FCheck (pairs (match d with Some i => [i] | None => dirs (fst s) end)) [])
  | FStep, FCheck (p :: r) f => Some (fst s, FCheck r (if has p (files (fst s)) then insert p f else f))
  | FStep, FCheck [] f => Some (fst s, FDone (handles f d q))  (* SD 930 *)
  | FStep, FDone _ => None
  end.

(** * What a proxy does with the calls *)

(** methods/offered_state_machine.cpp 41-69; [None] is its assertion. *)
Inductive ostate := Offered | StopOffered | ReOffered.

Definition offer_change (o : ostate) (available : bool) : option ostate :=
  match o, available with
  | Offered, true => Some Offered
  | Offered, false => Some StopOffered
  | StopOffered, true => Some ReOffered
  | StopOffered, false => None
  | ReOffered, true => None
  | ReOffered, false => Some StopOffered
  end.

(** proxy.cpp 978-987 and 486-493: one call of its handler with these instances. *)
Definition proxy_call (o : option ostate) (l : list inst) : option ostate :=
  match o with
  | None => None
  | Some o' => offer_change o' (match l with [] => false | _ => true end)
  end.
