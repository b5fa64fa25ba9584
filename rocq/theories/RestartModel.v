(** Consumer processes of one service instance that start, register for an event, die and restart,
    and the messages they leave behind.  Models lola/transaction_log_rollback_executor.cpp:70-94
    (TE, PrepareRollback) with the pid of each application kept in the instance's shared memory
    (lola/application_id_pid_mapping.cpp; PidMapModel.v), and the provider's table of registered
    processes: lola/messaging/message_passing_service_instance.cpp (MS) 463-604, 1312-1328, for one
    event (MsgModel.v has the table for all events; [table_step] is shown equal to it).

    Each process has its own connection to the provider, on which messages arrive in order; messages
    of different processes arrive in any order, and those a process had sent before it died may
    still arrive or be lost. *)
From Verif Require Import Base.
Local Open Scope N_scope.

Inductive msg := MReg | MUnreg | MOutdated (pid : N).

Record st := mkSt {
  app_of : N -> option N;        (* live process -> its application *)
  used : N -> bool;              (* a process with this id has existed *)
  attached : N -> bool;          (* the process has created a proxy for the instance *)
  wants : N -> bool;             (* its last call: a receive handler is registered *)
  recorded : N -> option N;      (* application -> process, in the instance's memory *)
  wire : list (N * msg);         (* messages under way, oldest first *)
  table : N -> bool              (* the provider's table: processes to notify *)
}.

Definition init : st := mkSt (fun _ => None) (fun _ => false) (fun _ => false) (fun _ => false) (fun _ => None) [] (fun _ => false).

Definition nupd {A} (f : N -> A) (k : N) (v : A) : N -> A := fun x => if x =? k then v else f x.

(** MS 463-604 as far as the table of the event is concerned *)
Definition table_step (t : N -> bool) (sender : N) (m : msg) : N -> bool :=
  match m with
  | MReg => nupd t sender true
  | MUnreg => nupd t sender false
  | MOutdated p => nupd t p false
  end.

(** the oldest message of a process *)
Fixpoint take (p : N) (w : list (N * msg)) : option (msg * list (N * msg)) :=
  match w with
  | [] => None
  | (q, m) :: r =>
      if q =? p then Some (m, r)
      else match take p r with Some (m', r') => Some (m', (q, m) :: r') | None => None end
  end.

Inductive label :=
| Start (app pid : N)     (* a process of the application is started *)
| Attach (pid : N)        (* creates its first proxy *)
| SetHandler (pid : N)    (* registers / *)
| UnsetHandler (pid : N)  (* unregisters its receive handler *)
| Deliver (pid : N)       (* the oldest message of the process arrives *)
| Lose (pid : N)          (* the oldest message of a dead process is lost *)
| Die (pid : N).

(** None: the step is not possible *)
Definition step (s : st) (l : label) : option st :=
  match l with
  | Start a p =>
      match app_of s p with
      | Some _ => None
      | None => Some (mkSt (nupd (app_of s) p (Some a)) (nupd (used s) p true) (nupd (attached s) p false)
                           (nupd (wants s) p false) (recorded s) (wire s) (table s))
      end
  | Attach p =>                                                   (* TE 70-94, 115-118 *)
      match app_of s p with
      | None => None
      | Some a =>
          if attached s p then None else
          let w := match recorded s a with
                   | Some q => if q =? p then wire s else wire s ++ [(p, MOutdated q)]
                   | None => wire s
                   end in
          Some (mkSt (app_of s) (used s) (nupd (attached s) p true) (wants s) (nupd (recorded s) a (Some p)) w (table s))
      end
  | SetHandler p =>
      match app_of s p with
      | None => None
      | Some _ => if attached s p && negb (wants s p)
                  then Some (mkSt (app_of s) (used s) (attached s) (nupd (wants s) p true) (recorded s) (wire s ++ [(p, MReg)]) (table s))
                  else None
      end
  | UnsetHandler p =>
      match app_of s p with
      | None => None
      | Some _ => if attached s p && wants s p
                  then Some (mkSt (app_of s) (used s) (attached s) (nupd (wants s) p false) (recorded s) (wire s ++ [(p, MUnreg)]) (table s))
                  else None
      end
  | Deliver p =>
      match take p (wire s) with
      | None => None
      | Some (m, w) => Some (mkSt (app_of s) (used s) (attached s) (wants s) (recorded s) w (table_step (table s) p m))
      end
  | Lose p =>
      match app_of s p, take p (wire s) with
      | None, Some (_, w) => Some (mkSt (app_of s) (used s) (attached s) (wants s) (recorded s) w (table s))
      | _, _ => None
      end
  | Die p =>
      match app_of s p with
      | None => None
      | Some _ => Some (mkSt (nupd (app_of s) p None) (used s) (attached s) (wants s) (recorded s) (wire s) (table s))
      end
  end.

Fixpoint run (s : st) (ls : list label) : option st :=
  match ls with
  | [] => Some s
  | l :: r => match step s l with Some s' => run s' r | None => None end
  end.
