(** What a user can tell from the history of calls and results on a proxy event. *)
From Verif Require Import ProxyModel.

Definition hist := list (pop * pres).

Record view := mkV {
  v_sub : bool;             (* a Subscribe succeeded and was not followed by Unsubscribe *)
  v_avail : bool;           (* the last report about the provider was: available *)
  v_pid : N;                (* provider process named in the last "available" report *)
  v_handler : option nat;   (* receive handler in effect: set, and since then neither
                               removed by UnsetReceiveHandler nor by ending the subscription *)
  v_sets : nat              (* number of successful SetReceiveHandler calls *)
}.

Definition view_step (v : view) (e : pop * pres) : view :=
  match e with
  | (OSubscribe _ _, ROk) => mkV true (v_avail v) (v_pid v) (v_handler v) (v_sets v)
  | (OUnsubscribe _, ROk) => mkV false (v_avail v) (v_pid v) (if v_sub v then None else v_handler v) (v_sets v)
  | (OSet, ROk) => mkV (v_sub v) (v_avail v) (v_pid v) (Some (v_sets v)) (S (v_sets v))
  | (OUnset _, ROk) => mkV (v_sub v) (v_avail v) (v_pid v) None (v_sets v)
  | (OStop, ROk) => mkV (v_sub v) false (v_pid v) (v_handler v) (v_sets v)
  | (OReoffer pid, ROk) => mkV (v_sub v) true pid (v_handler v) (v_sets v)
  | _ => v
  end.

Definition look (pid0 : N) (h : hist) : view := fold_left view_step h (mkV false true pid0 None 0).

(** The documented state: NotSubscribed without a subscription, otherwise Subscribed
    while the provider is there and SubscriptionPending while it is not. *)
Definition documented (v : view) : sstate :=
  if v_sub v then if v_avail v then SSub else SPend else SNot.

(** the provider is reported under a new process only after it was reported absent *)
Fixpoint orderly (v : view) (h : hist) : Prop :=
  match h with
  | [] => True
  | e :: r =>
      (match e with
       | (OReoffer pid, ROk) => v_avail v = true -> pid = v_pid v
       | _ => True
       end) /\ orderly (view_step v e) r
  end.

(** no subscription is ended from within the handler of another event *)
Definition no_foreign_unsubscribe (os : list pop) : Prop := ~ In (OUnsubscribe InOther) os.
