(** Model of a control slot word and of the scans over the slot array.

    Paths are relative to /repo/score/mw/com/impl/bindings/lola.
    A slot word is an [N] below 2^64.  *)
From Verif Require Export Base.

(** event_slot_status.cpp:20 *)
Definition INVALID_EVENT : N := 0%N.
(** event_slot_status.cpp:23 (max of SubscriberCount = uint32, widened to 64 bit) *)
Definition IN_WRITING : N := (two32 - 1)%N.
(** event_slot_status.h: TIMESTAMP_MAX, INVALID_TIMESTAMP *)
Definition TIMESTAMP_MAX : N := (two32 - 1)%N.
Definition INVALID_TIMESTAMP : N := 0%N.

(** event_slot_status.cpp:39-42  [data_ >> 32] *)
Definition ts_of (w : N) : N := (w / two32)%N.
(** event_slot_status.cpp:34-37  [data_ & 0xFFFFFFFF] *)
Definition rc_of (w : N) : N := (w mod two32)%N.
(** event_slot_status.cpp:64-67 SetTimeStamp: overwrites the whole word *)
Definition set_ts (t : N) : N := ((t * two32) mod two64)%N.
(** event_slot_status.cpp:69-72 SetReferenceCount: keeps the upper half *)
Definition set_rc (w r : N) : N := ((w / two32) * two32 + r)%N.
(** event_slot_status.cpp:28-32 constructor (timestamp, refcount) *)
Definition mk_status (t r : N) : N := set_rc (set_ts t) r.

(** event_slot_status.cpp:44-52 *)
Definition is_invalid (w : N) : bool := (w =? INVALID_EVENT)%N.
Definition is_in_writing (w : N) : bool := (w =? IN_WRITING)%N.
(** event_slot_status.cpp:103-106 *)
Definition is_used (w : N) : bool := negb (rc_of w =? 0)%N || is_in_writing w.
(** event_slot_status.cpp:74-84 *)
Definition is_between (w lo hi : N) : bool :=
  negb (is_in_writing w) && negb (is_invalid w) && (lo <? ts_of w)%N && (ts_of w <? hi)%N.

(** 64 bit fetch_add / fetch_sub of 1 *)
Definition w_inc (w : N) : N := ((w + 1) mod two64)%N.
Definition w_dec (w : N) : N := ((w + two64 - 1) mod two64)%N.

(** provider_event_data_control_local_view.cpp:76 and 99-103: the running
    [oldest_time_stamp] is TIMESTAMP_MAX or the timestamp of the chosen slot. *)
Definition best_ts (best : option (nat * N)) : N :=
  match best with None => TIMESTAMP_MAX | Some (_, w) => ts_of w end.

(** provider_event_data_control_local_view.cpp:95-104: body of the scan for a
    slot that is not invalid. *)
Definition scan_oldest (best : option (nat * N)) (i : nat) (w : N) : option (nat * N) :=
  if (rc_of w =? 0)%N && negb (is_in_writing w) && (ts_of w <? best_ts best)%N
  then Some (i, w) else best.

(** provider_event_data_control_local_view.cpp:73-107 FindOldestUnusedSlot on a
    frozen array (used for the sequential properties; the interleaving machine
    in EventModel.v performs the same loads one at a time). *)
Fixpoint find_oldest (slots : list N) (i : nat) (best : option (nat * N)) : option (nat * N) :=
  match slots with
  | [] => best
  | w :: rest => if is_invalid w then Some (i, w) else find_oldest rest (S i) (scan_oldest best i w)
  end.
Definition FindOldestUnusedSlot (slots : list N) : option (nat * N) := find_oldest slots 0 None.

(** list update *)
Fixpoint lset {A} (l : list A) (i : nat) (v : A) : list A :=
  match l, i with
  | [], _ => []
  | _ :: t, O => v :: t
  | h :: t, S k => h :: lset t k v
  end.

(** provider_event_data_control_local_view.cpp:46-67 AllocateNextSlot without
    interference: the compare-exchange at 156 cannot fail, a failed search is
    repeated 101 times with the same result. *)
Definition AllocateNextSlot_quiet (slots : list N) : option nat * list N :=
  match FindOldestUnusedSlot slots with
  | None => (None, slots)
  | Some (i, _) => (Some i, lset slots i IN_WRITING)
  end.

(** provider_event_data_control_local_view.cpp:117-126 EventReady; None = assert *)
Definition EventReady (slots : list N) (i : nat) (t : N) : option (list N) :=
  if i <? length slots then Some (lset slots i (mk_status t 0)) else None.

(** provider_event_data_control_local_view.cpp:129-138 Discard; None = assert *)
Definition Discard (slots : list N) (i : nat) : option (list N) :=
  match nth_error slots i with
  | None => None
  | Some w => Some (if is_in_writing w then lset slots i INVALID_EVENT else slots)
  end.

(** provider_event_data_control_local_view.cpp:182-209 without interference *)
Definition RemoveAllocationsForWriting (slots : list N) : list N :=
  map (fun w => if is_in_writing w then INVALID_EVENT else w) slots.

(** event_data_control_composite.cpp:237-260 on the control of one quality *)
Definition latest_acc (acc w : N) : N :=
  if negb (is_invalid w) && negb (is_in_writing w) && (acc <? ts_of w)%N then ts_of w else acc.
Definition GetLatestTimestamp (slots : list N) : N := fold_left latest_acc slots INVALID_TIMESTAMP.

(** consumer_event_data_control_local_view.cpp:71, 82: timestamp of the running
    candidate, initially [last_search_time] *)
Definition cand_ts (last : N) (cand : option (nat * N)) : N :=
  match cand with None => last | Some (_, w) => ts_of w end.

(** consumer_event_data_control_local_view.cpp:78-94: one iteration of the scan *)
Definition scan_newest (last upper : N) (cand : option (nat * N)) (i : nat) (w : N) : option (nat * N) :=
  if is_between w (cand_ts last cand) upper then Some (i, w) else cand.

Fixpoint find_newest (last upper : N) (slots : list N) (i : nat) (cand : option (nat * N)) : option (nat * N) :=
  match slots with
  | [] => cand
  | w :: rest => find_newest last upper rest (S i) (scan_newest last upper cand i w)
  end.

(** consumer_event_data_control_local_view.cpp:196-217 GetNumNewEvents *)
Definition GetNumNewEvents (slots : list N) (reference : N) : nat :=
  length (filter (fun w => is_between w reference TIMESTAMP_MAX) slots).

(** consumer_event_data_control_local_view.cpp:56-146 ReferenceNextEvent without
    interference and without spurious failure (the transaction log is modelled
    in EventModel.v and LogSetModel.v). The inner option is the returned index,
    outer None = the assertion at 109-112. *)
Definition ReferenceNextEvent_quiet (slots : list N) (last upper : N)
  : option (option nat * list N) :=
  match find_newest last upper slots 0 None with
  | None => Some (None, slots)
  | Some (i, w) =>
      if (w =? two64 - 1)%N then None else Some (Some i, lset slots i (w_inc w))
  end.

(** slot_collector.cpp:55-82 CollectSlots without interference; [cap] is the
    size of collected_slots_. Result: indices oldest first (reverse of the
    order of collection). *)
Fixpoint CollectSlots_quiet (count cap : nat) (slots : list N) (last highest : N) (acc : list nat)
  : option (list nat * list N) :=
  match count, cap with
  | S count', S cap' =>
      match ReferenceNextEvent_quiet slots last highest with
      | None => None
      | Some (None, slots') => Some (acc, slots')
      | Some (Some i, slots') =>
          match nth_error slots' i with
          | None => None
          | Some w => CollectSlots_quiet count' cap' slots' last (ts_of w) (i :: acc)
          end
      end
  | _, _ => Some (acc, slots)
  end.

(** slot_collector.cpp:40-50: newest delivered timestamp *)
Definition newest_delivered (slots : list N) (last : N) (idx : list nat) : N :=
  fold_left (fun acc i => N.max acc (ts_of (nth i slots 0%N))) idx last.

(** slot_collector.cpp:34-53 GetNewSamplesSlotIndices without interference:
    delivered indices oldest first, new slot array, new last_ts_ *)
Definition GetNewSamplesSlotIndices_quiet (max_count cap : nat) (slots : list N) (last : N)
  : option (list nat * list N * N) :=
  match CollectSlots_quiet max_count cap slots last TIMESTAMP_MAX [] with
  | None => None
  | Some (idx, slots') => Some (idx, slots', newest_delivered slots' last idx)
  end.
