(** Outstanding samples of a sending event: the guards inside SampleAllocateePtr and the tracker of the event.
    Models score/mw/com/impl/sample_allocatee_guard.cpp and score/mw/com/impl/sample_allocatee_tracker.cpp. Any number of
    trackers (one per SkeletonEvent) and of guards. Threads work on different guards at the same time; a step is one
    operation on a guard, whose only shared access is one atomic operation on the counter of a tracker.
    Simplified: the counter does not wrap at 2^64; fetch_add and the construction of the guard in Allocate are one step; a
    guard that is destroyed is a null guard from then on. *)

From Coq Require Import List Bool Arith.
Import ListNotations.

(** Running; terminated by the destructor of a tracker (sample_allocatee_tracker.cpp 27-32); failed assertion of
    Deallocate (49); access to a destroyed tracker. *)
Inductive outcome := Running | Terminated | Underflow | Dangling.

(** [cnt]: allocated_count_ of each tracker; [checked]: the destructor of the tracker has read the
    counter; [gone]: the tracker is destroyed; [guards]: tracker_ of each guard, [None] for
    nullptr (sample_allocatee_guard.h 63). *)
Record st := mkS { cnt : nat -> nat; checked : nat -> bool; gone : nat -> bool; guards : list (option nat); out : outcome }.

Definition init : st := mkS (fun _ => 0) (fun _ => false) (fun _ => false) [] Running.

Definition upd {A} (f : nat -> A) (t : nat) (v : A) : nat -> A := fun u => if Nat.eqb t u then v else f u.

(** The guard number [i] gets the value [g]. *)
Fixpoint set (i : nat) (g : option nat) (l : list (option nat)) : list (option nat) :=
  match l, i with
  | [], _ => []
  | _ :: r, 0 => g :: r
  | x :: r, S k => x :: set k g r
  end.

Definition guard (s : st) (i : nat) : option nat := nth i (guards s) None.
Definition put (s : st) (i : nat) (g : option nat) : st := mkS (cnt s) (checked s) (gone s) (set i g (guards s)) (out s).

(** SampleAllocateeTracker::Deallocate: sample_allocatee_tracker.cpp 46-50 *)
Definition tracker_deallocate (s : st) (t : nat) : st :=
  if gone s t then mkS (cnt s) (checked s) (gone s) (guards s) Dangling
  else match cnt s t with
       | 0 => mkS (cnt s) (checked s) (gone s) (guards s) Underflow
       | S n => mkS (upd (cnt s) t n) (checked s) (gone s) (guards s) (out s)
       end.

(** SampleAllocateeGuard::Deallocate: sample_allocatee_guard.cpp 52-59 *)
Definition deallocate (s : st) (i : nat) : st :=
  match guard s i with
  | Some t => put (tracker_deallocate s t) i None
  | None => s
  end.

(** [LAllocate t]: SampleAllocateeTracker::Allocate (sample_allocatee_tracker.cpp 35-39). [LMove j]: a guard constructed by
    moving from [j] (sample_allocatee_guard.cpp 28-31). [LAssign i j]: move assignment (33-45). [LDestroy i]: destructor
    (47-50). [LCheck t]: the destructor of the tracker reads the counter and terminates if it is not 0 (sample_allocatee_tracker.cpp
    26-32). [LGone t]: the destructor is done (33). Other threads may act between the two. *)
Inductive lbl := LAllocate (t : nat) | LMove (j : nat) | LAssign (i j : nat) | LDestroy (i : nat) | LCheck (t : nat) | LGone (t : nat).

Definition step (s : st) (l : lbl) : st :=
  match out s with
  | Running =>
      match l with
      | LAllocate t =>
          if gone s t then s (* the event is destroyed: nobody can call Allocate *)
          else mkS (upd (cnt s) t (S (cnt s t))) (checked s) (gone s) (guards s ++ [Some t]) Running
      | LMove j =>
          let g := guard s j in
          mkS (cnt s) (checked s) (gone s) (set j None (guards s) ++ [g]) Running
      | LAssign i j =>
          if Nat.ltb i (length (guards s)) then
            if Nat.eqb i j then s
            else
              let s1 := deallocate s i in
              let g := guard s1 j in
              put (put s1 i g) j None
          else s (* no such guard *)
      | LDestroy i => deallocate s i
      | LGone t => if checked s t then mkS (cnt s) (checked s) (upd (gone s) t true) (guards s) Running else s
      | LCheck t =>
          if checked s t then s (* an event is destroyed once *)
          else match cnt s t with
               | 0 => mkS (cnt s) (upd (checked s) t true) (gone s) (guards s) Running
               | S _ => mkS (cnt s) (checked s) (gone s) (guards s) Terminated
               end
      end
  | _ => s
  end.

Definition run (s : st) (ls : list lbl) : st := fold_left step ls s.
