(** The sample object a sending user holds: SampleAllocateePtr, with the slot of the event it refers to and its guard.
    Models score/mw/com/impl/plumbing/sample_allocatee_ptr.h and score/mw/com/impl/bindings/lola/sample_allocatee_ptr.h. The
    guards and the counter are those of GuardModel.v; here a guard is what an object holds, and swapping two optional
    guards is one step that changes no counter (std::swap of std::optional moves guards only, C119_moves_neutral).
    Simplified: no mock binding; a slot is known by its event only; the counter does not wrap. *)

From Coq Require Import List Bool Arith.
From Verif Require Import GuardModel.
Import ListNotations.

(** [slot]: internal_ holds a slot of this event (sample_allocatee_ptr.h 163-164, lola 196-199); [grd]: allocatee_guard_ (168). *)
Record handle := mkH { slot : option nat; grd : option nat }.

(** SampleAllocateePtr(): no object, no guard. *)
Definition empty : handle := mkH None None.

Record hst := mkHS { hcnt : nat -> nat; hchecked : nat -> bool; hgone : nat -> bool; hs : list handle; hout : outcome }.

Definition hinit : hst := mkHS (fun _ => 0) (fun _ => false) (fun _ => false) [] Running.

Fixpoint hset (i : nat) (h : handle) (l : list handle) : list handle :=
  match l, i with
  | [], _ => []
  | _ :: r, 0 => h :: r
  | x :: r, S k => x :: hset k h r
  end.

Definition held (s : hst) (i : nat) : handle := nth i (hs s) empty.
Definition hput (s : hst) (i : nat) (h : handle) : hst := mkHS (hcnt s) (hchecked s) (hgone s) (hset i h (hs s)) (hout s).
Definition fail (s : hst) (o : outcome) : hst := mkHS (hcnt s) (hchecked s) (hgone s) (hs s) o.

(** [HAlloc t]: Allocate of the event (skeleton_event.h 253). [HMove j]: move construction, a swap with an empty object
    (sample_allocatee_ptr.h 171-176, 218-225). [HAssign i j]: move assignment, a swap (178-184, 218-225). [HSlot i]: the slot is discarded (lola
    181-194). [HGuard i]: the guard is released. [HCheck t], [HGone t]: the destructor of the event, as in GuardModel.v. *)
Inductive hlbl := HAlloc (t : nat) | HMove (j : nat) | HAssign (i j : nat) | HSlot (i : nat) | HGuard (i : nat) | HCheck (t : nat) | HGone (t : nat).

Definition hstep (s : hst) (l : hlbl) : hst :=
  match hout s with
  | Running =>
      match l with
      | HAlloc t =>
          if hgone s t then s
          else mkHS (upd (hcnt s) t (S (hcnt s t))) (hchecked s) (hgone s) (hs s ++ [mkH (Some t) (Some t)]) Running
      | HMove j => mkHS (hcnt s) (hchecked s) (hgone s) (hset j empty (hs s) ++ [held s j]) Running
      | HAssign i j =>
          if Nat.ltb i (length (hs s)) && Nat.ltb j (length (hs s)) then hput (hput s i (held s j)) j (held s i)
          else s
      | HSlot i =>
          match slot (held s i) with
          | Some t => if hgone s t then fail s Dangling (* event_data_control_ptr_ refers to the destroyed event *)
                      else hput s i (mkH None (grd (held s i)))
          | None => s
          end
      | HGuard i =>
          match grd (held s i) with
          | Some t =>
              if hgone s t then fail s Dangling
              else match hcnt s t with
                   | 0 => fail s Underflow
                   | S n => hput (mkHS (upd (hcnt s) t n) (hchecked s) (hgone s) (hs s) Running) i (mkH (slot (held s i)) None)
                   end
          | None => s
          end
      | HCheck t =>
          if hchecked s t then s
          else match hcnt s t with
               | 0 => mkHS (hcnt s) (upd (hchecked s) t true) (hgone s) (hs s) Running
               | S _ => fail s Terminated
               end
      | HGone t => if hchecked s t then mkHS (hcnt s) (hchecked s) (upd (hgone s) t true) (hs s) Running else s
      end
  | _ => s
  end.

Definition hrun (s : hst) (ls : list hlbl) : hst := fold_left hstep ls s.

(** reset() and assignment of nullptr: the slot first, then the guard (sample_allocatee_ptr.h 186-216). *)
Definition reset (i : nat) : list hlbl := [HSlot i; HGuard i].

(** ~SampleAllocateePtr() = default (76): members in the reverse order of their declaration (163-168), the guard first. *)
Definition destroy (i : nat) : list hlbl := [HGuard i; HSlot i].
