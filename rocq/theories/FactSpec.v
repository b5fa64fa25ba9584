(** C111: what the theorems of [FactProps] say, in terms of calls, handles and registrations. *)
From Coq Require Import List Arith Bool.
From Verif Require Import FactModel.
Import ListNotations.

(** Different paths have different identifiers. *)
Definition no_collision (c : cfg) : Prop := forall p q, key c p = key c q -> p = q.

(** Calls that want the memory at a path. *)
Definition opens (o : op) : bool :=
  match o with Open _ _ _ | Create _ | CreateOrOpen _ _ => true | _ => false end.

(** The step in which thread [t], inside call [o], looks whether the process has the memory already. *)
Definition looks (s : st) (l : label) (o : op) : Prop :=
  exists t ok, l = LGo t ok /\ th s t = TLook o.

(** No handle is held to memory of path [p] that Remove took out of the factory. *)
Definition no_removed (s : st) (p : nat) : Prop :=
  forall r, 0 < held s r -> rpath (info s r) = p -> fmap s p = Some r.

(** No thread has dropped the last handle to memory of path [p] and not yet taken it out of the registry. *)
Definition no_dropping (s : st) (p : nat) : Prop :=
  forall t r, th s t = TDtor r -> rpath (info s r) <> p.

(** The application opens a path only when it holds nothing removed there and is not just dropping it. *)
Definition orderly (s : st) (l : label) : Prop :=
  forall o, looks s l o -> opens o = true -> no_removed s (opath o) /\ no_dropping s (opath o).

(** RemoveStaleArtefacts is called only for paths of which the process holds nothing; and the system
    does not refuse CreateOrOpen an existing object. *)
Definition permitted (s : st) (l : label) : Prop :=
  (forall p r, looks s l (RemoveStale p) -> 0 < held s r -> rpath (info s r) <> p) /\
  (forall t p al, l = LGo t false -> th s t <> TFs (CreateOrOpen p al)).

(** [P] holds at every step of the run of [ls] from [s]. *)
Fixpoint along (P : st -> label -> Prop) (c : cfg) (s : st) (ls : list label) : Prop :=
  match ls with
  | [] => True
  | l :: r => P s l /\ match apply c s l with Some s' => along P c s' r | None => True end
  end.

(** A handle to [r] exists. *)
Definition live (s : st) (r : nat) : Prop := 0 < held s r.

(** Containers and pointers in the memory of [r] find it: the registry knows it under its identifier. *)
Definition registered (c : cfg) (s : st) (r : nat) : Prop := reg s (key c (rpath (info s r))) = Some r.

(** In this step the call [o] of thread [t] returns [a]. *)
Definition returns (c : cfg) (s : st) (l : label) (s' : st) (t : nat) (o : op) (a : option nat) : Prop :=
  apply c s l = Some s' /\ th s' t = TDone o a /\ th s t <> TDone o a.

(** The call a thread is in. *)
Definition call_of (x : tst) : option op :=
  match x with
  | TLock o | TLook o | TFs o | TMap o _ | TIns o _ | TCheck o _ | TUnl o _ | TDrop o _ | TDtorL o _
  | TUnmapL o _ | TTmp o | TStale o => Some o
  | _ => None
  end.

(** Nobody in the run unlinks the object of path [p]: neither this process nor another. *)
Definition unlinks (p : nat) (l : label) : Prop :=
  (exists t, l = LCall t (Remove p)) \/ (exists t, l = LCall t (RemoveStale p)) \/ l = LOther p None.
Definition never_unlinked (p : nat) (ls : list label) : Prop := forall l, In l ls -> ~ unlinks p l.

(** Nobody asks for read-only memory at path [p]. *)
Definition never_read_only (p : nat) (ls : list label) : Prop :=
  forall t al, ~ In (LCall t (Open p false al)) ls.

(** The call wants to write. *)
Definition wants_write (o : op) : bool :=
  match o with Open _ rw _ => rw | Create _ | CreateOrOpen _ _ => true | _ => false end.

(** Only one thread of the process uses the factory and drops handles. *)
Definition single_threaded (ls : list label) : Prop :=
  forall l, In l ls -> match l with LCall t _ | LGo t _ | LRelease t _ => t = 0 | _ => True end.

(** Remove is not called. *)
Definition never_removed (ls : list label) : Prop := forall t p, ~ In (LCall t (Remove p)) ls.
