(** Model of the application id -> process id table in shared memory.
    score/mw/com/impl/bindings/lola/application_id_pid_mapping.{h,cpp}, application_id_pid_mapping_entry.cpp.

    Every label is one access to shared memory by one process; a process may crash at any point.  Memory is
    sequentially consistent.  pid_t is Z.  The key of an entry is the 64 bit word of the code. *)
From Verif Require Import Base.
Local Open Scope N_scope.

Definition kUnused : N := 0.
Definition kUsed : N := 1.
Definition kUpdating : N := 2.

(** application_id_pid_mapping_entry.cpp:49-56 *)
Definition CreateKey (status app : N) : N := N.lor (N.shiftl status 32) app.
(** application_id_pid_mapping_entry.cpp:20-41 *)
Definition key_status (k : N) : N := N.land (N.shiftr k 32) 65535.
Definition key_app (k : N) : N := N.land k 4294967295.

Record entry := mkE { e_key : N; e_pid : Z }.

(** A call of RegisterPid(application_id a, pid) by a process; g is a ghost: the process registered for a
    when the call began.  The retry counter and the index into the entries are those of the code. *)
Inductive rpc :=
| RIdle
| RScan (a : N) (pid : Z) (g : option Z) (i : nat)                 (* application_id_pid_mapping.cpp:49-57,64 *)
| RUpd (a : N) (pid : Z) (g : option Z) (i : nat)                  (* 60 *)
| RUpdW (a : N) (pid : Z) (g : option Z) (i : nat) (old : Z)       (* 61-62 *)
| RTake (a : N) (pid : Z) (g : option Z) (i : nat)                 (* 73 *)
| RTakeU (a : N) (pid : Z) (g : option Z) (i : nat)                (* 74-76 *)
| RFree (a : N) (pid : Z) (g : option Z) (r i : nat)               (* 110-123; r retries begun *)
| RCas (a : N) (pid : Z) (g : option Z) (r i : nat) (k : N)        (* 129 *)
| RSet (a : N) (pid : Z) (g : option Z) (i : nat)                  (* 132 *)
| RSetU (a : N) (pid : Z) (g : option Z) (i : nat)                 (* 133-135 *)
| RDone (a : N) (pid : Z) (g : option Z) (res : option Z)
| RCrashed.

Record rst := mkR { ents : nat -> entry; pcs : nat -> rpc }.

(** application_id_pid_mapping_entry.h:48-50: all entries zero *)
Definition rinit : rst := mkR (fun _ => mkE 0 0) (fun _ => RIdle).

Definition kMaxRetries : nat := 50.

Section Table.
Variable n : nat.   (* max_mappings *)

(** the process registered for application a: the first entry in use for it *)
Fixpoint reg_upto (s : rst) (a : N) (i m : nat) : option Z :=
  match m with
  | O => None
  | S m => let e := ents s i in
      if (key_status (e_key e) =? kUsed) && (key_app (e_key e) =? a) then Some (e_pid e) else reg_upto s a (S i) m
  end.
Definition registered (s : rst) (a : N) : option Z := reg_upto s a 0 n.

Definition r_pc (s : rst) (p : nat) (c : rpc) := mkR (ents s) (fupd (pcs s) p c).
Definition r_ent (s : rst) (i : nat) (e : entry) := mkR (fupd (ents s) i e) (pcs s).

Inductive rlabel :=
| RStart (p : nat) (a : N) (pid : Z)
| RStep (p : nat) (spurious : bool)
| RCrash (p : nat).

Definition active (c : rpc) : option N :=
  match c with
  | RIdle | RDone _ _ _ _ | RCrashed => None
  | RScan a _ _ _ | RUpd a _ _ _ | RUpdW a _ _ _ _ | RTake a _ _ _ | RTakeU a _ _ _
  | RFree a _ _ _ _ | RCas a _ _ _ _ _ | RSet a _ _ _ | RSetU a _ _ _ => Some a
  end.

Definition rstep (s : rst) (l : rlabel) : rst :=
  match l with
  | RStart p a pid => match active (pcs s p) with None => r_pc s p (RScan a pid (registered s a) 0) | Some _ => s end
  | RCrash p => r_pc s p RCrashed
  | RStep p spurious =>
      match pcs s p with
      | RIdle | RDone _ _ _ _ | RCrashed => s
      | RScan a pid g i =>
          if (i <? n)%nat then
            let k := e_key (ents s i) in
            if (key_status k =? kUsed) && (key_app k =? a) then r_pc s p (RUpd a pid g i)
            else if (key_status k =? kUpdating) && (key_app k =? a) then r_pc s p (RTake a pid g i)
            else r_pc s p (RScan a pid g (S i))
          else r_pc s p (RFree a pid g 1 0)
      | RUpd a pid g i => r_pc s p (RUpdW a pid g i (e_pid (ents s i)))
      | RUpdW a pid g i old => r_pc (r_ent s i (mkE (e_key (ents s i)) pid)) p (RDone a pid g (Some old))
      | RTake a pid g i => r_pc (r_ent s i (mkE (e_key (ents s i)) pid)) p (RTakeU a pid g i)
      | RTakeU a pid g i => r_pc (r_ent s i (mkE (CreateKey kUsed a) (e_pid (ents s i)))) p (RDone a pid g (Some pid))
      | RFree a pid g r i =>
          if (i <? n)%nat then
            let k := e_key (ents s i) in
            if key_status k =? kUnused then r_pc s p (RCas a pid g r i (CreateKey (key_status k) (key_app k)))
            else r_pc s p (RFree a pid g r (S i))
          else if (r <? kMaxRetries)%nat then r_pc s p (RFree a pid g (S r) 0)
          else r_pc s p (RDone a pid g None)
      | RCas a pid g r i k =>
          if (e_key (ents s i) =? k) && negb spurious
          then r_pc (r_ent s i (mkE (CreateKey kUpdating a) (e_pid (ents s i)))) p (RSet a pid g i)
          else r_pc s p (RFree a pid g r (S i))
      | RSet a pid g i => r_pc (r_ent s i (mkE (e_key (ents s i)) pid)) p (RSetU a pid g i)
      | RSetU a pid g i => r_pc (r_ent s i (mkE (CreateKey kUsed a) (e_pid (ents s i)))) p (RDone a pid g (Some pid))
      end
  end.

Fixpoint rrun (s : rst) (ls : list rlabel) : rst :=
  match ls with [] => s | l :: ls => rrun (rstep s l) ls end.
End Table.
