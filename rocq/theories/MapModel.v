(** Model of LinearSearchMap, the fixed capacity map in shared memory that holds the service elements.
    score/mw/com/impl/bindings/lola/linear_search_map.h.

    Keys and values are arbitrary; key_equal is the KeyEqual predicate.  An iterator is the index of its
    element (end() is the number of elements).  NonRelocatableVector is not part of the repository; its
    emplace_back appends in place and terminates when the capacity is exceeded (linear_search_map.h:115). *)
From Verif Require Import Base.

Section Map.
Variable K V : Type.
Variable key_equal : K -> K -> bool.

Record lmap := mkMap { storage : list (K * V); cap : nat }.

Inductive outcome (A : Type) := Ok (a : A) | Terminate.
Arguments Ok {A}. Arguments Terminate {A}.

(** linear_search_map.h:134-140 *)
Definition map_new (max_number_of_elements : nat) : lmap := mkMap [] max_number_of_elements.

(** linear_search_map.h:184-202 *)
Definition map_size (m : lmap) : nat := length (storage m).
Definition map_empty (m : lmap) : bool := (map_size m =? 0)%nat.

(** linear_search_map.h:204-230 *)
Fixpoint find_from (l : list (K * V)) (key : K) (i : nat) : nat :=
  match l with
  | [] => i
  | (k, _) :: l => if key_equal k key then i else find_from l key (S i)
  end.
Definition map_find (m : lmap) (key : K) : nat := find_from (storage m) key 0.

(** linear_search_map.h:239-255 *)
Definition map_at (m : lmap) (key : K) : outcome V :=
  match nth_error (storage m) (map_find m key) with
  | Some (_, v) => Ok v
  | None => Terminate
  end.

(** linear_search_map.h:257-288: both overloads; the key built from the copied tuple is the inserted key *)
Definition map_emplace (m : lmap) (key : K) (v : V) : outcome (lmap * (nat * bool)) :=
  let existing := map_find m key in
  if (existing =? map_size m)%nat then
    if (map_size m <? cap m)%nat
    then Ok (mkMap (storage m ++ [(key, v)]) (cap m), (map_size m, true))
    else Terminate
  else Ok (m, (existing, false)).

Fixpoint set_value (l : list (K * V)) (i : nat) (v : V) : list (K * V) :=
  match l, i with
  | [], _ => []
  | (k, _) :: l, O => (k, v) :: l
  | x :: l, S i => x :: set_value l i v
  end.
(** map.at(key) = v, through the reference returned by at() (linear_search_map.h:239-246) *)
Definition map_assign (m : lmap) (key : K) (v : V) : outcome lmap :=
  match map_at m key with
  | Ok _ => Ok (mkMap (set_value (storage m) (map_find m key) v) (cap m))
  | Terminate => Terminate
  end.

Inductive mop := MEmplace (k : K) (v : V) | MAssign (k : K) (v : V) | MFind (k : K) | MAt (k : K) | MSize | MElements.
Inductive mres := MInserted (v : option V) (is_new : bool) | MDone | MFound (v : option V) | MValue (v : V) | MNum (n : nat) | MList (l : list (K * V)).

Definition value_at (m : lmap) (i : nat) : option V := option_map snd (nth_error (storage m) i).

(** One call on the map and what the caller sees. *)
Definition mstep (m : lmap) (o : mop) : outcome (lmap * mres) :=
  match o with
  | MEmplace k v => match map_emplace m k v with Ok (m', (i, b)) => Ok (m', MInserted (value_at m' i) b) | Terminate => Terminate end
  | MAssign k v => match map_assign m k v with Ok m' => Ok (m', MDone) | Terminate => Terminate end
  | MFind k => Ok (m, MFound (if (map_find m k =? map_size m)%nat then None else value_at m (map_find m k)))
  | MAt k => match map_at m k with Ok v => Ok (m, MValue v) | Terminate => Terminate end
  | MSize => Ok (m, MNum (map_size m))
  | MElements => Ok (m, MList (storage m))
  end.

(** Calls until the first termination: the results, and whether it terminated. *)
Fixpoint mrun (m : lmap) (os : list mop) : list mres * bool * lmap :=
  match os with
  | [] => ([], false, m)
  | o :: os => match mstep m o with
               | Ok (m', r) => let '(rs, t, m'') := mrun m' os in (r :: rs, t, m'')
               | Terminate => ([], true, m)
               end
  end.
End Map.
Arguments Ok {A}. Arguments Terminate {A}.
