(** One provider on a quiet event: sequence of Allocate / Send / destruction of
    an allocated sample.  Paths relative to /repo/score/mw/com/impl/bindings/lola. *)
From Verif Require Export SlotModel.

Record prov := mkProv {
  p_slots : list N;       (* state_slots_ *)
  p_cur : N;              (* skeleton_event_common.h current_timestamp_ *)
  p_own : list nat        (* slot indices of the living SampleAllocateePtrs *)
}.

Inductive pop :=
| OAlloc            (* Allocate() *)
| OSend (k : nat)   (* Send of the k-th allocated sample *)
| ODrop (k : nat).  (* destruction of the k-th allocated sample *)

Fixpoint ldel {A} (l : list A) (k : nat) : list A :=
  match l, k with
  | [], _ => []
  | _ :: t, O => t
  | h :: t, S k => h :: ldel t k
  end.

(** skeleton_event_common.h:351-389 AllocateSlot, 392-408 Send, then
    sample_allocatee_ptr.h:181-194 (Discard in the destructor). An operation on a
    handle that does not exist is ignored; None = an assertion fires. *)
Definition pstep (p : prov) (o : pop) : option prov :=
  match o with
  | OAlloc =>
      match AllocateNextSlot_quiet (p_slots p) with
      | (None, _) => Some p
      | (Some i, sl) => Some (mkProv sl (p_cur p) (p_own p ++ [i]))
      end
  | OSend k =>
      match nth_error (p_own p) k with
      | None => Some p
      | Some i =>
          let t := ((p_cur p + 1) mod two32)%N in
          match EventReady (p_slots p) i t with
          | None => None
          | Some sl =>
              match Discard sl i with
              | None => None
              | Some sl' => Some (mkProv sl' t (ldel (p_own p) k))
              end
          end
      end
  | ODrop k =>
      match nth_error (p_own p) k with
      | None => Some p
      | Some i =>
          match Discard (p_slots p) i with
          | None => None
          | Some sl => Some (mkProv sl (p_cur p) (ldel (p_own p) k))
          end
      end
  end.

Fixpoint prun (p : prov) (os : list pop) : option prov :=
  match os with
  | [] => Some p
  | o :: r => match pstep p o with None => None | Some p' => prun p' r end
  end.

(** event_data_control.cpp: a fresh control has all slots invalid *)
Definition pinit (n : nat) : prov := mkProv (repeat INVALID_EVENT n) 0 [].
