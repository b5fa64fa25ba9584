(** Moving, assigning over and destroying proxy and skeleton objects.

    Elements (events, fields) of generated classes are members of the object and
    change their address when the object is moved; elements of the generic
    classes lie in a heap map.  The base class keeps a map of references to
    small heap cells, each of which holds the present address of one element.
    This file models the objects, the elements, the cells, and what the moves
    do to them. *)
From Verif Require Import Base OffsetPtrModel.
Open Scope nat_scope.

(** A class: skeleton or proxy, generic or generated from an interface, and the
    number of its service elements.
    /repo/score/mw/com/impl/traits.h:183 (SkeletonWrapperClass), :328
    (ProxyWrapperClass), generic_skeleton.h:48, generic_proxy.h:60.
    Simplification: elements are numbered; events and fields are not
    distinguished (the event of a field lies in a further heap block). *)
Record ty := mkTy { skel : bool; gen : bool; nel : nat }.

(** Where the elements of an object lie: in the object at location [l], or in
    the heap map made for the [i]-th object created.
    /repo/score/mw/com/impl/generic_skeleton.h:86-92 (events_),
    generic_proxy.h:103 (generic_events_) *)
Inductive home := InObj (l : nat) | OnHeap (i : nat).

Definition heqb (a b : home) : bool :=
  match a, b with
  | InObj x, InObj y => Nat.eqb x y
  | OnHeap x, OnHeap y => Nat.eqb x y
  | _, _ => false
  end.

(** An element.  Bindings, cells and trackers are heap objects made when the
    element is created; they are named by (number of the creation, index).
    [None] is a null unique_ptr.
    /repo/score/mw/com/impl/skeleton_event_base.h:87-100,
    proxy_event_base.h:192-207, reference_to_moveable.h:149 *)
Record elem := mkE {
  e_cell : option (nat * nat);   (* ptr_wrapper_.reference_to_moveable_ *)
  e_bind : option (nat * nat);   (* binding_ / binding_base_ *)
  e_flag : bool;                 (* service_offered_flag_ / is_subscribed_flag_ *)
  e_trk : option (nat * nat)     (* sample_allocatee_tracker_ / tracker_ *)
}.

(** What a move leaves behind: null pointers and a cleared FlagOwner.
    /repo/score/mw/com/impl/flag_owner.h:33-51 *)
Definition moved : elem := mkE None None false None.

(** An object without its elements.
    /repo/score/mw/com/impl/skeleton_base.h (binding_, events_, fields_,
    service_offered_flag_), proxy_base.h (proxy_binding_, events_, fields_),
    traits.h:318 (is_service_owner_), :453 (is_proxy_owner_).
    Simplification: instance_id_ moves with the binding and is not kept apart;
    the maps of events, fields and methods are one list of cells. *)
Record obj := mkO {
  o_ty : ty;
  o_bind : option nat;
  o_map : list (nat * nat);
  o_flag : bool;
  o_owner : bool;
  o_home : option nat            (* generic: the heap map; null when moved from *)
}.

(** What the rest of the system sees. *)
Inductive event :=
| Announced (i : nat)            (* instance offered to service discovery *)
| Withdrawn (i : nat)            (* offer withdrawn *)
| On (i k : nat)                 (* element prepared for offering / subscribed *)
| Off (i k : nat)                (* element stopped / unsubscribed *)
| Used (i k : nat)               (* sample sent / samples fetched *)
| Took (i k : nat)               (* sample allocated / sample pointer handed out *)
| Gave (i k : nat)               (* sample given back *)
| HandlerSet (i k : nat)
| Called (i k : nat)             (* receive handler ran *)
| Refused.                       (* the call returned an error *)

Record world := mkW {
  ann : nat -> bool;             (* announced *)
  act : nat -> nat -> bool;      (* element offered / subscribed *)
  held : nat -> nat -> nat;      (* samples in the hands of the user *)
  log : list event
}.

Definition fupd2 {A} (f : nat -> nat -> A) (i k : nat) (v : A) : nat -> nat -> A :=
  fun i' k' => if Nat.eqb i' i && Nat.eqb k' k then v else f i' k'.

Definition say (w : world) (e : event) : world := mkW (ann w) (act w) (held w) (e :: log w).
Definition w_announce (w : world) (i : nat) : world :=
  mkW (fupd (ann w) i true) (act w) (held w) (Announced i :: log w).
Definition w_withdraw (w : world) (i : nat) : world :=
  mkW (fupd (ann w) i false) (act w) (held w) (Withdrawn i :: log w).
Definition w_on (w : world) (i k : nat) : world :=
  mkW (ann w) (fupd2 (act w) i k true) (held w) (On i k :: log w).
Definition w_off (w : world) (i k : nat) : world :=
  mkW (ann w) (fupd2 (act w) i k false) (held w) (Off i k :: log w).
Definition w_take (w : world) (i k : nat) : world :=
  mkW (ann w) (act w) (fupd2 (held w) i k (S (held w i k))) (Took i k :: log w).
Definition w_give (w : world) (i k : nat) : world :=
  mkW (ann w) (act w) (fupd2 (held w) i k (pred (held w i k))) (Gave i k :: log w).

(** The program state. *)
Record cst := mkC {
  objs : nat -> option obj;
  els : home -> nat -> option elem;
  cells : nat -> nat -> option (home * nat);   (* None: freed *)
  trk : nat -> nat -> bool;                    (* tracker exists *)
  prepc : nat -> bool;                         (* binding: PrepareOffer was called / exists *)
  stopc : nat -> bool;                         (* binding: PrepareStopOffer / deinitialized *)
  hnd : nat -> nat -> option (home * nat);     (* receive handler, and the address of the
                                                  tracing data it refers to *)
  wd : world;
  nxt : nat
}.

Definition set_obj (s : cst) (l : nat) (o : option obj) : cst :=
  mkC (fupd (objs s) l o) (els s) (cells s) (trk s) (prepc s) (stopc s) (hnd s) (wd s) (nxt s).
Definition set_el (s : cst) (h : home) (k : nat) (e : option elem) : cst :=
  mkC (objs s) (fun h' k' => if heqb h' h && Nat.eqb k' k then e else els s h' k')
      (cells s) (trk s) (prepc s) (stopc s) (hnd s) (wd s) (nxt s).
Definition set_cell (s : cst) (c : option (nat * nat)) (v : option (home * nat)) : cst :=
  match c with
  | None => s
  | Some (i, k) => mkC (objs s) (els s) (fupd2 (cells s) i k v) (trk s) (prepc s) (stopc s) (hnd s) (wd s) (nxt s)
  end.
Definition set_trk (s : cst) (c : option (nat * nat)) (v : bool) : cst :=
  match c with
  | None => s
  | Some (i, k) => mkC (objs s) (els s) (cells s) (fupd2 (trk s) i k v) (prepc s) (stopc s) (hnd s) (wd s) (nxt s)
  end.
Definition set_hnd (s : cst) (c : option (nat * nat)) (v : option (home * nat)) : cst :=
  match c with
  | None => s
  | Some (i, k) => mkC (objs s) (els s) (cells s) (trk s) (prepc s) (stopc s) (fupd2 (hnd s) i k v) (wd s) (nxt s)
  end.
Definition set_prepc (s : cst) (i : nat) : cst :=
  mkC (objs s) (els s) (cells s) (trk s) (fupd (prepc s) i true) (stopc s) (hnd s) (wd s) (nxt s).
Definition set_stopc (s : cst) (i : nat) : cst :=
  mkC (objs s) (els s) (cells s) (trk s) (prepc s) (fupd (stopc s) i true) (hnd s) (wd s) (nxt s).
Definition set_w (s : cst) (w : world) : cst :=
  mkC (objs s) (els s) (cells s) (trk s) (prepc s) (stopc s) (hnd s) w (nxt s).

Fixpoint foldM {A} (f : cst -> A -> res cst) (s : cst) (xs : list A) : res cst :=
  match xs with
  | [] => Ok s
  | x :: r => do s1 <- f s x ; foldM f s1 r
  end.

(** The element a cell of the map leads to.
    /repo/score/mw/com/impl/reference_to_moveable.h:93-109 (Reference::Get) *)
Definition at_cell (s : cst) (c : nat * nat) : res (home * nat * elem) :=
  match cells s (fst c) (snd c) with
  | None => UB
  | Some (h, k) => match els s h k with None => UB | Some e => Ok (h, k, e) end
  end.

Definition with_flag (e : elem) (b : bool) : elem := mkE (e_cell e) (e_bind e) b (e_trk e).

Definition in_use (s : cst) (t : option (nat * nat)) : bool :=
  match t with None => false | Some (i, k) => Nat.ltb 0 (held (wd s) i k) end.

(** /repo/score/mw/com/impl/skeleton_event_base.h:67-74 (PrepareStopOffer) *)
Definition elem_stop (s : cst) (c : nat * nat) : res cst :=
  do x <- at_cell s c ;
  let '(h, k, e) := x in
  if e_flag e
  then match e_bind e with
       | None => UB
       | Some (i, j) => Ok (set_el (set_w s (w_off (wd s) i j)) h k (Some (with_flag e false)))
       end
  else Ok s.

(** /repo/score/mw/com/impl/proxy_event_base.cpp:115-152 (Unsubscribe).
    Expiring the scope of the receive handler means it is not called any more.
    Simplification: no call from within a handler. *)
Definition unsub_at (s : cst) (h : home) (k : nat) (e : elem) : res cst :=
  if e_flag e
  then match e_bind e with
       | None => Term
       | Some (i, j) =>
         if act (wd s) i j
         then if in_use s (e_trk e) then Term
              else Ok (set_el (set_hnd (set_w s (w_off (wd s) i j)) (e_bind e) None) h k (Some (with_flag e false)))
         else Ok (set_el s h k (Some (with_flag e false)))
       end
  else Ok s.

Definition elem_unsub (s : cst) (c : nat * nat) : res cst :=
  do x <- at_cell s c ;
  let '(h, k, e) := x in unsub_at s h k e.

(** /repo/score/mw/com/impl/skeleton_base.cpp:223-248 (StopOfferService) *)
Definition stop_offer (s : cst) (l : nat) (o : obj) : res cst :=
  if o_flag o
  then match o_bind o with
       | None => UB
       | Some i =>
         do s1 <- foldM elem_stop (set_w s (w_withdraw (wd s) i)) (o_map o) ;
         Ok (set_obj (set_stopc s1 i) l
               (Some (mkO (o_ty o) (o_bind o) (o_map o) false (o_owner o) (o_home o))))
       end
  else Ok s.

(** /repo/score/mw/com/impl/proxy_base.cpp:190-208 (Deinitialize) *)
Definition deinit (s : cst) (o : obj) : res cst :=
  do s1 <- foldM elem_unsub s (o_map o) ;
  match o_bind o with None => Ok s1 | Some i => Ok (set_stopc s1 i) end.

(** The first part of destructors and move assignments.
    /repo/score/mw/com/impl/traits.h:253-259, :274-277, :350-356, :371-374,
    generic_proxy.cpp:111-117, :130-133.  GenericSkeleton has no owner flag. *)
Definition close (s : cst) (l : nat) (o : obj) : res cst :=
  if o_owner o then (if skel (o_ty o) then stop_offer s l o else deinit s o) else Ok s.

(** Destruction of the binding of an object.
    /repo/score/mw/com/impl/bindings/lola/skeleton.cpp:522-530 (prepare_offer_called_
    and prepare_stop_offer_called_ are never reset, :277-278, :417, :430),
    bindings/lola/proxy.cpp:466-474 *)
Definition drop_binding (s : cst) (b : option nat) : res cst :=
  match b with
  | None => Ok s
  | Some i => if prepc s i && negb (stopc s i) then Term else Ok s
  end.

(** Destruction of one element: its cell is freed; the tracker must be unused.
    /repo/score/mw/com/impl/sample_allocatee_tracker.cpp:24-36,
    proxy_event_base.cpp:56-65; the destructor of receive_handler_scope_ expires
    the handler. *)
Definition destroy_el (h : home) (s : cst) (k : nat) : res cst :=
  match els s h k with
  | None => UB
  | Some e =>
    if in_use s (e_trk e) then Term
    else Ok (set_el (set_hnd (set_trk (set_cell s (e_cell e) None) (e_trk e) false) (e_bind e) None) h k None)
  end.

(** Move construction of an element: pointers are taken over, the cell is told
    the new address (through a null pointer if the source was moved from).
    /repo/score/mw/com/impl/enable_reference_to_moveable_from_this.h:54-58,
    reference_to_moveable.h:137-140 *)
Definition ctor_el (hd hs : home) (s : cst) (k : nat) : res cst :=
  match els s hs k with
  | None => UB
  | Some e =>
    match e_cell e with
    | None => UB
    | Some _ => Ok (set_el (set_el (set_cell s (e_cell e) (Some (hd, k))) hs k (Some moved)) hd k (Some e))
    end
  end.

(** Move assignment of an element: the old cell, binding and tracker are
    destroyed.  Only the tracker of skeleton events checks that it is unused.
    /repo/score/mw/com/impl/enable_reference_to_moveable_from_this.h:59-67,
    skeleton_event_base.h:81, proxy_event_base.cpp:68,
    sample_allocatee_tracker.cpp:24-36 *)
Definition assign_el (sk : bool) (hd hs : home) (s : cst) (k : nat) : res cst :=
  match els s hd k, els s hs k with
  | Some d, Some e =>
    match e_cell e with
    | None => UB
    | Some _ =>
      if sk && in_use s (e_trk d) then Term
      else
        let s1 := set_hnd (set_trk (set_cell s (e_cell d) None) (e_trk d) false) (e_bind d) None in
        Ok (set_el (set_el (set_cell s1 (e_cell e) (Some (hd, k))) hs k (Some moved)) hd k (Some e))
    end
  | _, _ => UB
  end.

Inductive op :=
| Create (l : nat) (t : ty)
| MoveCtor (dst src : nat)
| MoveAssign (dst src : nat)
| Destroy (l : nat)
| Offer (l : nat)
| Stop (l : nat)
| Use (l k : nat)                (* Send / GetNewSamples *)
| Take (l k : nat)               (* Allocate / keep a sample pointer *)
| Give (i k : nat)               (* give a sample of element k of the i-th object back *)
| Subscribe (l k : nat)
| Unsubscribe (l k : nat)
| SetHandler (l k : nat)
| Notify (i k : nat).            (* a notification arrives for that element *)

(** The home of the elements of the object at [l]. *)
Definition home_of (l : nat) (o : obj) : option home :=
  if gen (o_ty o) then match o_home o with None => None | Some i => Some (OnHeap i) end
  else Some (InObj l).

(** The element [k] of the object at [l], as user code names it
    (a member, or GetEvents().find(..)). *)
Definition my_el (s : cst) (l k : nat) : res (obj * home * elem) :=
  match objs s l with
  | None => UB
  | Some o =>
    match home_of l o with
    | None => UB
    | Some h => match els s h k with None => UB | Some e => Ok (o, h, e) end
    end
  end.

Definition emptied (o : obj) : obj := mkO (o_ty o) None [] false false None.

(** Construction of element [k] of the [i]-th object.
    /repo/score/mw/com/impl/enable_reference_to_moveable_from_this.h:47,
    skeleton_event_base.h:36-49, proxy_event_base.cpp:37-54 *)
Definition new_el (h : home) (i : nat) (s : cst) (k : nat) : res cst :=
  Ok (set_el (set_trk (set_cell s (Some (i, k)) (Some (h, k))) (Some (i, k)) true)
        h k (Some (mkE (Some (i, k)) (Some (i, k)) false (Some (i, k))))).

(** Create: traits.h:225-251, :388-427, generic_skeleton.cpp, generic_proxy.cpp:44-70.
    Simplification: creation succeeds, and the object is built in place (guaranteed
    elision; a move out of the Result is a [MoveCtor]).  The binding of a proxy
    counts as "prepared" from the start. *)
Definition create (s : cst) (l : nat) (t : ty) : res cst :=
  let i := nxt s in
  let h := if gen t then OnHeap i else InObj l in
  do s1 <- foldM (new_el h i) s (seq 0 (nel t)) ;
  let o := mkO t (Some i) (map (pair i) (seq 0 (nel t))) false
             (negb (skel t && gen t)) (if gen t then Some i else None) in
  Ok (mkC (fupd (objs s1) l (Some o)) (els s1) (cells s1) (trk s1)
          (fupd (prepc s1) i (negb (skel t))) (fupd (stopc s1) i false) (hnd s1) (wd s1) (S i)).

(** traits.h:264-268, :361-365, generic_proxy.cpp:119-124, skeleton_base.h:100,
    proxy_base.h:135: the base class first, then the elements, then the flag. *)
Definition move_ctor (s : cst) (dst src : nat) : res cst :=
  match objs s src with
  | None => UB
  | Some o =>
    do s1 <- (if gen (o_ty o) then Ok s
              else foldM (ctor_el (InObj dst) (InObj src)) s (seq 0 (nel (o_ty o)))) ;
    Ok (set_obj (set_obj s1 src (Some (emptied o))) dst (Some o))
  end.

Definition ty_eqb (a b : ty) : bool :=
  Bool.eqb (skel a) (skel b) && Bool.eqb (gen a) (gen b) && Nat.eqb (nel a) (nel b).

(** Destruction of the heap map of a generic object. *)
Definition drop_map (s : cst) (o : obj) : res cst :=
  match o_home o with
  | None => Ok s
  | Some i => foldM (destroy_el (OnHeap i)) s (seq 0 (nel (o_ty o)))
  end.

(** traits.h:270-283, :367-380, generic_proxy.cpp:126-139.  GenericSkeleton has the
    default move assignment: no check for self-assignment (the containers may then
    hold anything) and nothing is stopped.  Assignment between different classes
    does not compile. *)
Definition move_assign (s : cst) (dst src : nat) : res cst :=
  match objs s dst, objs s src with
  | Some o0, Some _ =>
    if Nat.eqb dst src
    then (if skel (o_ty o0) && gen (o_ty o0) then UB else Ok s)
    else
      do s1 <- close s dst o0 ;
      match objs s1 dst, objs s1 src with
      | Some o, Some o' =>
        if ty_eqb (o_ty o) (o_ty o')
        then
          do s2 <- drop_binding s1 (o_bind o) ;
          do s3 <- (if gen (o_ty o) then drop_map s2 o
                    else foldM (assign_el (skel (o_ty o)) (InObj dst) (InObj src)) s2 (seq 0 (nel (o_ty o)))) ;
          Ok (set_obj (set_obj s3 src (Some (emptied o'))) dst (Some o'))
        else UB
      | _, _ => UB
      end
  | _, _ => UB
  end.

(** traits.h:253-259, :350-356, generic_proxy.cpp:111-117; then the members, in
    reverse order, and the base class. *)
Definition destroy (s : cst) (l : nat) : res cst :=
  match objs s l with
  | None => UB
  | Some o0 =>
    do s1 <- close s l o0 ;
    match objs s1 l with
    | None => UB
    | Some o =>
      do s2 <- (if gen (o_ty o) then drop_map s1 o
                else foldM (destroy_el (InObj l)) s1 (rev (seq 0 (nel (o_ty o))))) ;
      do s3 <- drop_binding s2 (o_bind o) ;
      Ok (set_obj s3 l None)
    end
  end.

(** skeleton_base.cpp:55-68, :103-123: the bindings of all elements are collected,
    then each element is prepared through its cell. *)
Definition elem_offer (s : cst) (c : nat * nat) : res cst :=
  do x <- at_cell s c ;
  let '(h, k, e) := x in
  match e_bind e with
  | None => Term
  | Some (i, j) => Ok (set_el (set_w s (w_on (wd s) i j)) h k (Some (with_flag e true)))
  end.

(** skeleton_base.cpp:151-221 (OfferService).  Simplification: every step succeeds
    (C19 has the failures); offering what is offered already is not modelled (C87). *)
Definition offer (s : cst) (l : nat) : res cst :=
  match objs s l with
  | None => UB
  | Some o =>
    if o_flag o then UB else
    match o_bind o with
    | None => UB
    | Some i =>
      do s1 <- foldM elem_offer (set_prepc s i) (o_map o) ;
      Ok (set_obj (set_w s1 (w_announce (wd s1) i)) l
            (Some (mkO (o_ty o) (o_bind o) (o_map o) true (o_owner o) (o_home o))))
    end
  end.

(** [traced]: tracing of calls of receive handlers is enabled
    (ProxyEventTracingData::enable_call_receive_handler). *)
Definition step (traced : bool) (s : cst) (o : op) : res cst :=
  match o with
  | Create l t => create s l t
  | MoveCtor d r => move_ctor s d r
  | MoveAssign d r => move_assign s d r
  | Destroy l => destroy s l
  | Offer l => offer s l
  | Stop l => match objs s l with None => UB | Some b => stop_offer s l b end
  | Use l k =>
    (* skeleton_event.h:184-237 (Send), proxy_event.h:191 (GetNewSamples) *)
    do x <- my_el s l k ;
    let '(b, h, e) := x in
    if skel (o_ty b)
    then if e_flag e
         then match e_bind e with None => UB | Some (i, j) => Ok (set_w s (say (wd s) (Used i j))) end
         else Ok (set_w s (say (wd s) Refused))
    else match e_bind e with
         | None => UB
         | Some (i, j) => Ok (set_w s (say (wd s) (if act (wd s) i j then Used i j else Refused)))
         end
  | Take l k =>
    (* skeleton_event.h:239 (Allocate), proxy_event.h:191; the number of samples is
       not limited here (C05, C24 have the limits) *)
    do x <- my_el s l k ;
    let '(b, h, e) := x in
    if skel (o_ty b) && negb (e_flag e) then Ok (set_w s (say (wd s) Refused))
    else match e_bind e with
         | None => UB
         | Some (i, j) =>
           if negb (skel (o_ty b)) && negb (act (wd s) i j) then Ok (set_w s (say (wd s) Refused))
           else match e_trk e with
                | None => UB
                | Some (i', j') => Ok (set_w s (w_take (wd s) i' j'))
                end
         end
  | Give i k =>
    (* the guard in the sample pointer refers to the tracker on the heap *)
    if trk s i k then Ok (set_w s (w_give (wd s) i k)) else UB
  | Subscribe l k =>
    (* proxy_event_base.cpp:76-113; the subscription succeeds *)
    do x <- my_el s l k ;
    let '(b, h, e) := x in
    match e_bind e with
    | None => UB
    | Some (i, j) =>
      if act (wd s) i j then Ok (set_el s h k (Some (with_flag e true)))
      else Ok (set_el (set_w s (w_on (wd s) i j)) h k (Some (with_flag e true)))
    end
  | Unsubscribe l k =>
    do x <- my_el s l k ;
    let '(b, h, e) := x in unsub_at s h k e
  | SetHandler l k =>
    (* proxy_event_base.cpp:206-237, tracing/proxy_event_tracing.cpp:417-432: with
       tracing the handler keeps a reference to tracing_data_ of this element *)
    do x <- my_el s l k ;
    let '(b, h, e) := x in
    match e_bind e with
    | None => UB
    | Some (i, j) => Ok (set_hnd (set_w s (say (wd s) (HandlerSet i j))) (e_bind e) (Some (h, k)))
    end
  | Notify i k =>
    match hnd s i k with
    | None => Ok s
    | Some (h, j) =>
      if act (wd s) i k
      then if traced
           then match els s h j with
                | None => UB       (* tracing_data_ of a destroyed element *)
                | Some _ => Ok (set_w s (say (wd s) (Called i k)))
                end
           else Ok (set_w s (say (wd s) (Called i k)))
      else Ok s
    end
  end.

Fixpoint run (traced : bool) (s : cst) (os : list op) : res cst :=
  match os with
  | [] => Ok s
  | o :: r => do s1 <- step traced s o ; run traced s1 r
  end.

Definition w0 : world := mkW (fun _ => false) (fun _ _ => false) (fun _ _ => 0) [].
Definition s0 : cst :=
  mkC (fun _ => None) (fun _ _ => None) (fun _ _ => None) (fun _ _ => false)
      (fun _ => false) (fun _ => false) (fun _ _ => None) w0 0.
