(** Vocabulary for the layout of arguments and for calls. *)
From Verif Require Import Base DeplModel ArgModel.
Open Scope N_scope.

(** C++: an alignment is a power of two, the size of a type is a positive multiple of it *)
Definition pow2 (a : N) : Prop := exists k, a = 2 ^ k.
Definition wf (t : ty) : Prop := pow2 (al t) /\ 0 < sz t /\ (al t | sz t).

(** Values of the given types: as many bytes as the type has *)
Definition sized (ts : list ty) (vals : list bytes) : Prop :=
  Forall2 (fun t v => N.of_nat (length v) = sz t) ts vals.

(** All types of a signature *)
Definition types (me : method) : list ty := args me ++ match ret me with Some r => [r] | None => [] end.

(** Bytes of one queue element; 0 if there is no such queue *)
Definition in_size (me : method) : N := i_size (size_info (args me)).
Definition ret_size (me : method) : N := match ret me with Some r => sz r | None => 0 end.

(** The queues start at addresses aligned for their elements in a process that maps the region at
    [base]: what memory_resource.allocate(size, alignment) ensures for the consumer's mapping
    (I/bindings/lola/methods/type_erased_call_queue.cpp:137-138, 149) *)
Definition placed (me : method) (base : N) : Prop :=
  (forall t, In t (args me) -> (al t | base + in_off me)) /\
  (forall r, ret me = Some r -> (al r | base + ret_off me)).

(** The two queues do not share a byte *)
Definition apart (me : method) : Prop :=
  in_off me + in_size me * qsize me <= ret_off me \/ ret_off me + ret_size me * qsize me <= in_off me.

(** An offset is inside element [pos] of one of the two queues *)
Definition in_elements (me : method) (pos o : N) : Prop :=
  (in_off me + in_size me * pos <= o /\ o < in_off me + in_size me * (pos + 1)) \/
  (ret_off me + ret_size me * pos <= o /\ o < ret_off me + ret_size me * (pos + 1)).

(** mmap maps at a multiple of the page size *)
Definition page : N := 4096.
