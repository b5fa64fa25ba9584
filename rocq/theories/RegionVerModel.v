(** The versions of the region map and its lock-free readers (memory_region_map.cpp, paths relative
    to /repo/score/memory/shared).  One writer (writers are serialized by the registry, see
    memory_region_map.h:48-54) and any number of readers, interleaved at every access to a shared
    variable.

    Simplifications: sequentially consistent accesses; a fetch_add that detects an overflow
    terminates the process in the same step; a map that is being rewritten is [None] from the
    moment the writer starts until it has finished, whatever the order of its memory accesses. *)
From Verif Require Export RegionModel.
Local Open Scope Z_scope.

(** memory_region_map.h:132-141 *)
Definition INVALID_END : Z := 4294967295.
Definition INVALID_START : Z := INVALID_END / 2.
Definition INITIAL : Z := INVALID_START.
Definition VERSION_COUNT : nat := 10.
(** memory_region_map.cpp:300, 343 *)
Definition READ_RETRIES : nat := 255.
Definition WRITE_RETRIES : nat := 10.

Inductive wpc :=
| WIdle
| WScan (rt k : nat)      (* 352: look at version (k + latest) mod VERSION_COUNT *)
| WCas (rt k v : nat)     (* 358: its count was 0, try to take it *)
| WTake (v : nat)         (* taken, about to overwrite the map *)
| WCopy (v : nat)         (* copying the latest map and applying the change *)
| WStore (v : nat)        (* 161/196/221: the count becomes 0 *)
| WLatest (v : nat).      (* 164/199/224: becomes the latest version *)

(** [st] is a ghost value: the number of operations completed when the lookup began *)
Inductive rpc :=
| RIdle
| RLoad (st rt : nat)     (* 303: about to load the latest version *)
| RInc (st rt v : nat)    (* 304: about to increment its count *)
| RHold (st v : nat).     (* 318: evaluating version v, 250-276 *)

Record vst := mkV {
  maps : nat -> option regions;      (* known_regions_versions_; None = being rewritten *)
  rc : nat -> Z;                     (* known_regions_versions_refcounts_ *)
  latest : nat;                      (* latest_known_region_version_ *)
  wr : wpc;
  rd : nat -> rpc;
  ops : list rop;                    (* ghost: operations begun so far *)
  ndone : nat }.                     (* ghost: operations completed *)

(** memory_region_map.cpp:113-121 *)
Definition vinit : vst :=
  mkV (fun _ => Some []) (fun v => if (v =? 0)%nat then 0 else INITIAL) 0 WIdle (fun _ => RIdle) [] 0.

Inductive outcome := Next (s : vst) | Terminated | Torn (* a map was read while being rewritten *).

Definition v_wr (s : vst) (w : wpc) := mkV (maps s) (rc s) (latest s) w (rd s) (ops s) (ndone s).
Definition v_maps (s : vst) (v : nat) (m : option regions) :=
  mkV (fupd (maps s) v m) (rc s) (latest s) (wr s) (rd s) (ops s) (ndone s).
Definition v_rc (s : vst) (v : nat) (c : Z) :=
  mkV (maps s) (fupd (rc s) v c) (latest s) (wr s) (rd s) (ops s) (ndone s).
Definition v_rd (s : vst) (r : nat) (p : rpc) :=
  mkV (maps s) (rc s) (latest s) (wr s) (fupd (rd s) r p) (ops s) (ndone s).
Definition v_latest (s : vst) (v : nat) :=
  mkV (maps s) (rc s) v (wr s) (rd s) (ops s) (ndone s).
(** the operation returns to its caller *)
Definition v_return (s : vst) := mkV (maps s) (rc s) (latest s) WIdle (rd s) (ops s) (length (ops s)).
(** the caller calls UpdateKnownRegion, RemoveKnownRegion or ClearKnownRegions *)
Definition v_call (s : vst) (o : rop) :=
  mkV (maps s) (rc s) (latest s) (WScan 0 1) (rd s) (ops s ++ [o]) (ndone s).

(** memory_region_map.cpp:338-378 AcquireRegionVersionForOverwrite and the bodies of 137-232 *)
Definition wstep (s : vst) (spurious : bool) : outcome :=
  match wr s with
  | WIdle => Next s
  | WScan rt k =>
      if (VERSION_COUNT <=? k)%nat then
        if (WRITE_RETRIES <=? S rt)%nat then Terminated else Next (v_wr s (WScan (S rt) 1))
      else
        let v := ((k + latest s) mod VERSION_COUNT)%nat in
        if rc s v =? 0 then Next (v_wr s (WCas rt k v))
        else if rc s v =? INITIAL then Next (v_wr s (WTake v))
        else Next (v_wr s (WScan rt (S k)))
  | WCas rt k v =>
      if (rc s v =? 0) && negb spurious then Next (v_wr (v_rc s v INVALID_START) (WTake v))
      else Next (v_wr s (WScan rt (S k)))
  | WTake v => Next (v_wr (v_maps s v None) (WCopy v))
  | WCopy v =>
      match last (ops s) RClear with
      | RClear => Next (v_wr (v_maps s v (Some [])) (WStore v))
      | RAdd lo hi =>
          match maps s (latest s) with
          | None => Torn
          | Some l =>
              if has_start lo l then Terminated
              else if overlaps_neighbours lo hi (ins lo hi l) then Next (v_return (v_maps s v (Some (ins lo hi l))))
              else Next (v_wr (v_maps s v (Some (ins lo hi l))) (WStore v))
          end
      | RRemove lo =>
          match maps s (latest s) with
          | None => Torn
          | Some l => if has_start lo l then Next (v_wr (v_maps s v (Some (del lo l))) (WStore v)) else Terminated
          end
      end
  | WStore v => Next (v_wr (v_rc s v 0) (WLatest v))
  | WLatest v => Next (v_return (v_latest s v))
  end.

(** memory_region_map.cpp:292-334 AcquireLatestRegionVersionForRead, 248-277 GetBoundsFromAddress,
    104-110 ~AcquiredRefcountIndex *)
Definition rstep1 (s : vst) (r : nat) : outcome :=
  match rd s r with
  | RIdle => Next s
  | RLoad st rt =>
      if (READ_RETRIES <=? rt)%nat then Terminated else Next (v_rd s r (RInc st rt (latest s)))
  | RInc st rt v =>
      let prev := rc s v in
      let s1 := v_rc s v ((prev + 1) mod 4294967296) in
      if (prev =? INVALID_START - 1) || (prev =? INVALID_END) then Terminated
      else if prev <? INVALID_START - 1 then Next (v_rd s1 r (RHold st v))
      else Next (v_rd s1 r (RLoad st (S rt)))
  | RHold st v =>
      match maps s v with
      | None => Torn
      | Some _ => Next (v_rd (v_rc s v ((rc s v - 1) mod 4294967296)) r RIdle)
      end
  end.

Inductive vlabel :=
| LCall (o : rop)            (* the writer starts an operation *)
| LWriter (spurious : bool)  (* the writer takes a step; a weak compare-exchange may fail spuriously *)
| LLookup (r : nat)          (* reader r starts a lookup *)
| LReader (r : nat).         (* reader r takes a step *)

Definition vstep (s : vst) (l : vlabel) : outcome :=
  match l with
  | LCall o => match wr s with WIdle => Next (v_call s o) | _ => Next s end
  | LWriter sp => wstep s sp
  | LLookup r => match rd s r with RIdle => Next (v_rd s r (RLoad (ndone s) 0)) | _ => Next s end
  | LReader r => rstep1 s r
  end.

(** what reader r returns for address p if it evaluates the version it holds now *)
Definition lookup_now (s : vst) (r : nat) (p : Z) : option (option (Z * Z)) :=
  match rd s r with
  | RHold _ v => match maps s v with Some l => Some (GetBoundsFromAddress l p) | None => None end
  | _ => None
  end.
