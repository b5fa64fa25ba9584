(** Known memory regions of a process (memory_region_map.cpp), sequential part.
    Paths are relative to /repo/score/memory/shared.  Addresses are [Z] in [0, 2^64).

    std::map<uintptr_t, uintptr_t> (start address -> end address) is a list sorted by start
    address.  The versions of the map and the lock-free readers are in RegionVerModel.v. *)
From Verif Require Export Base.
Local Open Scope Z_scope.

Definition regions := list (Z * Z).

(** std::map::insert of a key that is not present *)
Fixpoint ins (lo hi : Z) (l : regions) : regions :=
  match l with
  | [] => [(lo, hi)]
  | (a, b) :: t => if lo <? a then (lo, hi) :: l else (a, b) :: ins lo hi t
  end.

(** std::map::find *)
Definition has_start (lo : Z) (l : regions) : bool := existsb (fun r => fst r =? lo) l.

(** std::map::erase *)
Definition del (lo : Z) (l : regions) : regions := filter (fun r => negb (fst r =? lo)) l.

(** the last element whose start address satisfies [f] in a sorted list, for [f] downward closed:
    std::prev of the inserted element, or --upper_bound *)
Fixpoint last_such (f : Z -> bool) (l : regions) : option (Z * Z) :=
  match l with
  | [] => None
  | r :: t => if f (fst r) then match last_such f t with Some x => Some x | None => Some r end else None
  end.

(** std::next of the inserted element *)
Definition first_after (lo : Z) (l : regions) : option (Z * Z) := find (fun r => lo <? fst r) l.

(** memory_region_map.cpp:36-74 DoesRegionIteratorOverlapWithExistingRegionInMap; [m] contains the
    inserted region *)
Definition overlaps_neighbours (lo hi : Z) (m : regions) : bool :=
  if (length m =? 1)%nat then false else
  (match last_such (fun a => a <? lo) m with Some (_, b) => lo <? b | None => false end) ||
  (match first_after lo m with Some (a, _) => a <? hi | None => false end).

(** memory_region_map.cpp:137-172 UpdateKnownRegion; None = assertion at 148.  On overlap the
    latest version stays the old one. *)
Definition UpdateKnownRegion (l : regions) (lo hi : Z) : option (bool * regions) :=
  if has_start lo l then None
  else if overlaps_neighbours lo hi (ins lo hi l) then Some (false, l) else Some (true, ins lo hi l).

(** memory_region_map.cpp:176-206 RemoveKnownRegion; None = assertion at 187 *)
Definition RemoveKnownRegion (l : regions) (lo : Z) : option regions :=
  if has_start lo l then Some (del lo l) else None.

(** memory_region_map.cpp:248-277 GetBoundsFromAddress on the acquired version *)
Definition GetBoundsFromAddress (l : regions) (p : Z) : option (Z * Z) :=
  match last_such (fun a => a <=? p) l with
  | None => None
  | Some (a, b) => if (a <=? p) && (p <=? b) then Some (a, b) else None
  end.

(** histories of registrations; memory_region_map.cpp:210-232 is [RClear] *)
Inductive rop := RAdd (lo hi : Z) | RRemove (lo : Z) | RClear.

Definition rstep (l : regions) (o : rop) : option regions :=
  match o with
  | RAdd lo hi => match UpdateKnownRegion l lo hi with Some (_, l') => Some l' | None => None end
  | RRemove lo => RemoveKnownRegion l lo
  | RClear => Some []
  end.

Fixpoint rrun (l : regions) (os : list rop) : option regions :=
  match os with
  | [] => Some l
  | o :: os => match rstep l o with Some l' => rrun l' os | None => None end
  end.
