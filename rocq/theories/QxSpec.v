(** Vocabulary for C114. *)
From Verif Require Import QxModel.

Inductive reach (c : cfg) (ok : st -> label -> Prop) : st -> Prop :=
| r_init : reach c ok (init c)
| r_step s l s' : reach c ok s -> ok s l -> step c s l = Some s' -> reach c ok s'.
Definition anything (s : st) (l : label) : Prop := True.

Definition replies (l : list msg) : nat := length (filter (fun m => match m with MReply _ => true | _ => false end) l).
(** Messages with content: replies, and notifications that are not empty. *)
Definition with_content (m : msg) : bool := match m with MNotify [] => false | _ => true end.
(** The client's receive buffer is large enough for the server's messages. *)
Definition fits (c : cfg) : Prop := 1 + max_notify c <= receive c /\ 1 + max_reply c <= receive c.
(** The server's user answers each request once, and the client asks only after it has got the answer. *)
Definition polite (s : st) (l : label) : Prop :=
  match l with
  | LReply _ => replies (acc s) < asked s
  | LAsk => replies (got s) = asked s
  | _ => True
  end.
(** At most one message waits for the client to register for pulses. *)
Definition one_early (s : st) (l : label) : Prop :=
  match l with
  | LNotify _ | LReply _ => regd s = RNone -> queue s = []
  | _ => True
  end.
(** No messages are sent before the client has registered. *)
Definition none_early (s : st) (l : label) : Prop :=
  match l with LNotify _ | LReply _ => regd s = RDone | _ => True end.
(** The notifications that occupy a buffer. *)
Definition notifies (l : list item) : nat := length (filter (fun i => negb (is_reply i)) l).

(** ** The pulse table *)
Inductive preach : pst -> Prop :=
| p_init : preach pinit
| p_step s l s' : preach s -> pstep s l = Some s' -> preach s'.
