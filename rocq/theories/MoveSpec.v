(** What moving objects should do, said without elements, cells or flags:
    a variable holds a service (the [i]-th object created) or, once moved from,
    nothing; a move carries the service from one variable to another and
    nobody else notices; the life of a service ends when the variable that holds
    it is destroyed or gets another value. *)
From Verif Require Import Base OffsetPtrModel MoveModel.
Open Scope nat_scope.

Record sst := mkS {
  var : nat -> option (ty * option nat);   (* None: no object there;
                                              Some (t, None): moved from *)
  sw : world;                              (* what the rest of the system sees *)
  shnd : nat -> nat -> bool;               (* a receive handler is registered *)
  snxt : nat
}.

Definition with_w (a : sst) (w : world) : sst := mkS (var a) w (shnd a) (snxt a).
Definition with_var (a : sst) (l : nat) (x : option (ty * option nat)) : sst :=
  mkS (fupd (var a) l x) (sw a) (shnd a) (snxt a).

Definition any_held (w : world) (t : ty) (i : nat) : bool :=
  existsb (fun k => Nat.ltb 0 (held w i k)) (seq 0 (nel t)).

Definition off_all (w : world) (t : ty) (i : nat) : world :=
  fold_left (fun w k => if act w i k then w_off w i k else w) (seq 0 (nel t)) w.

Definition on_all (w : world) (t : ty) (i : nat) : world :=
  fold_left (fun w k => w_on w i k) (seq 0 (nel t)) w.

(** a skeleton stops offering; a proxy gives up its subscriptions *)
Definition stopped (w : world) (t : ty) (i : nat) : world :=
  if skel t then (if ann w i then off_all (w_withdraw w i) t i else w) else off_all w t i.

(** the end of a service: everything stops; the program is ended if samples are
    still in the hands of the user *)
Definition s_end (a : sst) (t : ty) (i : nat) : res sst :=
  if any_held (sw a) t i then Term
  else Ok (mkS (var a) (stopped (sw a) t i)
             (fun i' k' => if Nat.eqb i' i && Nat.ltb k' (nel t) then false else shnd a i' k') (snxt a)).

Definition s_end_opt (a : sst) (t : ty) (v : option nat) : res sst :=
  match v with None => Ok a | Some i => s_end a t i end.

Definition s_step (a : sst) (o : op) : res sst :=
  match o with
  | Create l t =>
    Ok (mkS (fupd (var a) l (Some (t, Some (snxt a)))) (sw a) (shnd a) (S (snxt a)))
  | MoveCtor d r =>
    match var a r with
    | None => UB
    | Some (t, v) => Ok (with_var (with_var a r (Some (t, None))) d (Some (t, v)))
    end
  | MoveAssign d r =>
    match var a d, var a r with
    | Some (t, v), Some (t', v') =>
      if Nat.eqb d r then Ok a
      else do a1 <- s_end_opt a t v ;
           Ok (with_var (with_var a1 r (Some (t', None))) d (Some (t', v')))
    | _, _ => UB
    end
  | Destroy l =>
    match var a l with
    | None => UB
    | Some (t, v) => do a1 <- s_end_opt a t v ; Ok (with_var a1 l None)
    end
  | Offer l =>
    match var a l with
    | Some (t, Some i) => Ok (with_w a (w_announce (on_all (sw a) t i) i))
    | _ => UB
    end
  | Stop l =>
    match var a l with
    | Some (t, Some i) => Ok (with_w a (stopped (sw a) t i))
    | Some (t, None) => Ok a
    | None => UB
    end
  | Use l k =>
    match var a l with
    | Some (t, Some i) =>
      Ok (with_w a (say (sw a)
            (if (if skel t then ann (sw a) i else act (sw a) i k) then Used i k else Refused)))
    | Some (t, None) => Ok (with_w a (say (sw a) Refused))
    | None => UB
    end
  | Take l k =>
    match var a l with
    | Some (t, Some i) =>
      Ok (with_w a (if (if skel t then ann (sw a) i else act (sw a) i k)
                    then w_take (sw a) i k else say (sw a) Refused))
    | Some (t, None) => Ok (with_w a (say (sw a) Refused))
    | None => UB
    end
  | Give i k => Ok (with_w a (w_give (sw a) i k))
  | Subscribe l k =>
    match var a l with
    | Some (t, Some i) => Ok (with_w a (if act (sw a) i k then sw a else w_on (sw a) i k))
    | _ => UB
    end
  | Unsubscribe l k =>
    match var a l with
    | Some (t, Some i) =>
      if act (sw a) i k
      then if Nat.ltb 0 (held (sw a) i k) then Term
           else Ok (mkS (var a) (w_off (sw a) i k) (fupd2 (shnd a) i k false) (snxt a))
      else Ok a
    | _ => UB
    end
  | SetHandler l k =>
    match var a l with
    | Some (t, Some i) =>
      Ok (mkS (var a) (say (sw a) (HandlerSet i k)) (fupd2 (shnd a) i k true) (snxt a))
    | _ => UB
    end
  | Notify i k =>
    Ok (if shnd a i k && act (sw a) i k then with_w a (say (sw a) (Called i k)) else a)
  end.

Fixpoint s_run (a : sst) (os : list op) : res sst :=
  match os with
  | [] => Ok a
  | o :: r => do a1 <- s_step a o ; s_run a1 r
  end.

Definition a0 : sst := mkS (fun _ => None) w0 (fun _ _ => false) 0.

(** What a user may do.  The three restrictions that are not matters of C++ typing
    and lifetimes are each shown to be needed in MoveProps: do not move a
    moved-from object of a generated class; do not destroy or assign to a
    generic skeleton that is offered; with tracing, do not move a proxy of a
    generated class that has a receive handler. *)
Definition may_move (traced : bool) (a : sst) (t : ty) (v : option nat) : Prop :=
  (gen t = false -> v <> None) /\
  (traced = true -> gen t = false -> skel t = false ->
   forall i k, v = Some i -> shnd a i k = false).

Definition may_end (a : sst) (t : ty) (v : option nat) : Prop :=
  skel t = true -> gen t = true -> forall i, v = Some i -> ann (sw a) i = false.

Definition legal (traced : bool) (a : sst) (o : op) : Prop :=
  match o with
  | Create l t => var a l = None
  | MoveCtor d r => var a d = None /\ exists t v, var a r = Some (t, v) /\ may_move traced a t v
  | MoveAssign d r =>
    exists t v v', var a d = Some (t, v) /\ var a r = Some (t, v') /\
      (d = r -> skel t && gen t = false) /\
      (d <> r -> may_move traced a t v' /\ may_end a t v)
  | Destroy l => exists t v, var a l = Some (t, v) /\ may_end a t v
  | Offer l => exists t i, var a l = Some (t, Some i) /\ skel t = true /\ ann (sw a) i = false
  | Stop l => exists t v, var a l = Some (t, v) /\ skel t = true
  | Use l k | Take l k =>
    exists t v, var a l = Some (t, v) /\ k < nel t /\
      (v = None -> skel t = true /\ gen t = false)
  | Give i k => 0 < held (sw a) i k
  | Subscribe l k | Unsubscribe l k | SetHandler l k =>
    exists t i, var a l = Some (t, Some i) /\ skel t = false /\ k < nel t
  | Notify i k => True
  end.

Fixpoint legal_run (traced : bool) (a : sst) (os : list op) : Prop :=
  match os with
  | [] => True
  | o :: r => legal traced a o /\ (forall a1, s_step a o = Ok a1 -> legal_run traced a1 r)
  end.
