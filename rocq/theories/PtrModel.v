(** Pointers to the arguments and to the result of method calls, and the slots of the call queue they
    keep in use. M/ = score/mw/com/impl/methods. Any number of method objects of any signatures with
    a queue of any size (the code has kCallQueueSize = 1, M/proxy_method_base.h). Values are numbers;
    where they lie in memory is modelled in ArgModel. Methods without arguments and result have no
    pointers and are not modelled. Pointers must not outlive their method object (the flag they refer
    to lies there); method objects live forever here. *)
From Verif Require Import Base.

(** An element of a slot: method object, queue position, argument number or (None) the result *)
Definition elt := (nat * nat * option nat)%type.

Definition oeqb (a b : option nat) : bool :=
  match a, b with
  | None, None => true
  | Some x, Some y => Nat.eqb x y
  | _, _ => false
  end.
Definition eltb (a b : elt) : bool :=
  match a, b with (m, p, e), (m', p', e') => Nat.eqb m m' && Nat.eqb p p' && oeqb e e' end.

Definition set {A} (f : elt -> A) (k : elt) (v : A) : elt -> A := fun k' => if eltb k' k then v else f k'.

(** M/method_signature_element_ptr.h:100-102: a pointer object of the user. [o_own]: element_ptr_ is
    not null; [o_dead]: the object was destroyed *)
Record obj := mkObj { o_elt : elt; o_own : bool; o_dead : bool }.

(** are_in_arg_ptrs_active_ and is_return_type_ptr_active_ of all method objects, the values in the
    slots, the user's pointer objects *)
Record st := mkSt { flag : elt -> bool; val : elt -> N; objs : list obj }.
Definition init : st := mkSt (fun _ => false) (fun _ => 0%N) [].

Record cfg := mkCfg { qsize : nat; nargs : nat -> nat; hasret : nat -> bool }.

(** Outcome of the binding's part of a call: the return buffer is not available; the call fails, with
    the handler possibly having written a result; the handler's result *)
Inductive answer := NoBuffer | Failed (w : option N) | Ok (v : N).

Inductive op :=
| Allocate (m : nat) (sub : bool)              (* Allocate(); sub: GetInArgsBuffer succeeds *)
| Write (id : nat) (v : N)                     (* assignment through the pointer *)
| Move (id : nat)                              (* auto p = std::move(ptr) *)
| Drop (id : nat)                              (* ~ptr *)
| Call (m : nat) (ids : list nat) (a : answer) (* method(std::move(p0), std::move(p1), ...) *)
| CallCopy (m : nat) (vs : list N) (sub : bool) (a : answer) (* method(v0, v1, ...) *)
| Call0 (m : nat) (a : answer).                (* method() *)

(** What an operation gives. RDone given r: the handler ran on [given]; [r]: the pointer object to the
    result, None for void methods *)
Inductive res :=
| RUnit
| RFull                               (* ComErrc::kCallQueueFull *)
| RError                              (* an error of the binding *)
| RPtrs (ids : list nat)
| RDone (given : list N) (r : option nat)
| RTerminates
| RBad.                               (* not a program: no such object, wrong number of arguments *)

(** M/proxy_method.h:79-97 (and, for methods without arguments, M/proxy_method.cpp:18-28): a slot with
    no flag set *)
Definition slot_free (c : cfg) (s : st) (m p : nat) : bool :=
  negb (existsb (fun i => flag s (m, p, Some i)) (seq 0 (nargs c m))) && negb (flag s (m, p, None)).
Definition next_slot (c : cfg) (s : st) (m : nat) : option nat :=
  List.find (slot_free c s m) (seq 0 (qsize c)).

(** M/method_signature_element_ptr.h:30-34 *)
Definition new_ptr (s : st) (k : elt) : st := mkSt (set (flag s) k true) (val s) (objs s ++ [mkObj k true false]).

(** M/proxy_method.h:110-119, 143-148: pointers to all arguments; moves within the tuple have no effect *)
Definition new_ptrs (s : st) (m p n : nat) : st := fold_left (fun s i => new_ptr s (m, p, Some i)) (seq 0 n) s.

Fixpoint upd (l : list obj) (i : nat) (o : obj) : list obj :=
  match l, i with
  | [], _ => []
  | _ :: t, O => o :: t
  | x :: t, S i => x :: upd t i o
  end.

(** The moved-from object keeps its queue position but not the element:
    M/method_signature_element_ptr.h:56-60 *)
Definition moved (o : obj) : obj := mkObj (o_elt o) false (o_dead o).

(** M/method_signature_element_ptr.h:66-72 *)
Definition release (f : elt -> bool) (k : elt) (own : bool) : elt -> bool := if own then set f k false else f.

(** The parameters of the call operator, move-constructed from the user's objects: element, ownership *)
Fixpoint take (s : st) (ids : list nat) : option (st * list (elt * bool)) :=
  match ids with
  | [] => Some (s, [])
  | id :: ids =>
    match nth_error (objs s) id with
    | None => None
    | Some o =>
      if o_dead o then None else
      match take (mkSt (flag s) (val s) (upd (objs s) id (moved o))) ids with
      | None => None
      | Some (s', l) => Some (s', (o_elt o, o_own o) :: l)
      end
    end
  end.

Definition position (k : elt) : nat := match k with (_, p, _) => p end.

(** M/proxy_method.h:235-255 GetCommonQueuePosition: None: the process ends *)
Definition common_position (l : list (elt * bool)) : option nat :=
  match l with
  | [] => None
  | (k, _) :: t => if forallb (fun x => Nat.eqb (position (fst x)) (position k)) t then Some (position k) else None
  end.

(** Destruction of the parameters at the end of the call *)
Definition release_all (s : st) (l : list (elt * bool)) : st :=
  mkSt (fold_left (fun f x => release f (fst x) (snd x)) l (flag s)) (val s) (objs s).

(** The provider: the handler is run on the arguments in the slot, its result is written to the slot *)
Definition slot_args (c : cfg) (s : st) (m p : nat) : list N := map (fun i => val s (m, p, Some i)) (seq 0 (nargs c m)).

(** The part of the call operators after the position is known: M/proxy_method_with_in_args_and_return.h:195-217,
    M/proxy_method_with_in_args.h:164-169, M/proxy_method_with_return_type.h:133-155 *)
Definition do_call (c : cfg) (s : st) (m p : nat) (a : answer) : st * res :=
  match a with
  | NoBuffer => (s, RError)
  | Failed w =>
    (match w, hasret c m with
     | Some v, true => mkSt (flag s) (set (val s) (m, p, None) v) (objs s)
     | _, _ => s
     end, RError)
  | Ok v =>
    if hasret c m
    then (new_ptr (mkSt (flag s) (set (val s) (m, p, None) v) (objs s)) (m, p, None),
          RDone (slot_args c s m p) (Some (length (objs s))))
    else (s, RDone (slot_args c s m p) None)
  end.

(** M/proxy_method_with_in_args_and_return.h:184-217 *)
Definition call (c : cfg) (s : st) (m : nat) (ids : list nat) (a : answer) : st * res :=
  match take s ids with
  | None => (s, RBad)
  | Some (s1, ps) =>
    match common_position ps with
    | None => (s, RTerminates)
    | Some p => let (s2, r) := do_call c s1 m p a in (release_all s2 ps, r)
    end
  end.

(** AllocateImpl, M/proxy_method.h:126-149 *)
Definition allocate (c : cfg) (s : st) (m : nat) (sub : bool) : st * res :=
  match next_slot c s m with
  | None => (s, RFull)
  | Some p =>
    if sub then (new_ptrs s m p (nargs c m), RPtrs (seq (length (objs s)) (nargs c m)))
    else (s, RError)
  end.

Definition write (s : st) (id : nat) (v : N) : option st :=
  match nth_error (objs s) id with
  | Some (mkObj k true false) => Some (mkSt (flag s) (set (val s) k v) (objs s))
  | _ => None
  end.

(** Copying the values through the pointers, in order *)
Fixpoint writes (s : st) (ids : list nat) (vs : list N) : option st :=
  match ids, vs with
  | [], [] => Some s
  | id :: ids, v :: vs => match write s id v with Some s' => writes s' ids vs | None => None end
  | _, _ => None
  end.

Definition drop (s : st) (id : nat) : option st :=
  match nth_error (objs s) id with
  | Some (mkObj k own false) => Some (mkSt (release (flag s) k own) (val s) (upd (objs s) id (mkObj k own true)))
  | _ => None
  end.

Fixpoint drops (s : st) (ids : list nat) : option st :=
  match ids with
  | [] => Some s
  | id :: ids => match drop s id with Some s' => drops s' ids | None => None end
  end.

Definition step (c : cfg) (s : st) (o : op) : st * res :=
  match o with
  | Allocate m sub => if Nat.eqb (nargs c m) 0 then (s, RBad) else allocate c s m sub
  | Write id v => match write s id v with Some s' => (s', RUnit) | None => (s, RBad) end
  | Move id =>
    match nth_error (objs s) id with
    | Some o => if o_dead o then (s, RBad)
                else (mkSt (flag s) (val s) (upd (objs s) id (moved o) ++ [o]), RPtrs [length (objs s)])
    | None => (s, RBad)
    end
  | Drop id => match drop s id with Some s' => (s', RUnit) | None => (s, RBad) end
  | Call m ids a =>
    if Nat.eqb (nargs c m) 0 || negb (Nat.eqb (length ids) (nargs c m)) then (s, RBad)
    else call c s m ids a
  (* M/proxy_method_with_in_args_and_return.h:158-182: the tuple of pointers dies at the end *)
  | CallCopy m vs sub a =>
    if Nat.eqb (nargs c m) 0 || negb (Nat.eqb (length vs) (nargs c m)) then (s, RBad)
    else match allocate c s m sub with
         | (s1, RPtrs ids) =>
           match writes s1 ids vs with
           | None => (s, RBad)
           | Some s2 =>
             let (s3, r) := call c s2 m ids a in
             match drops s3 ids with Some s4 => (s4, r) | None => (s, RBad) end
           end
         | (s1, r) => (s1, r)
         end
  | Call0 m a =>
    if negb (Nat.eqb (nargs c m) 0) || negb (hasret c m) then (s, RBad)
    else match next_slot c s m with
         | None => (s, RFull)
         | Some p => do_call c s m p a
         end
  end.

Definition run (c : cfg) (ops : list op) : st := fold_left (fun s o => fst (step c s o)) ops init.
