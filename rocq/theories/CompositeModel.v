(** Model of an event that serves ASIL-B and QM consumers: two control arrays over
    the same sample slots (EventDataControlComposite).  Paths are relative to
    /repo/score/mw/com/impl/bindings/lola.

    Simplifications: one provider thread (assumption of use); a consumer's
    reference / release is one atomic step on its control word (the detailed
    consumer is EventModel.v); the QM side may in addition write anything into its
    own control words at any time (label LQmWrite). *)
From Verif Require Export SlotModel.

(** event_data_control_composite.cpp:25 *)
Definition MAX_MULTI : nat := 100.
(** provider_event_data_control_local_view.cpp:29 *)
Definition MAX_SINGLE : nat := 100.

Inductive gpc :=
| GIdle
| GScanQm (cnt i : nat) (best : option (nat * N))              (* next: load of QM slot i *)
| GScanB (cnt i : nat) (vqm : N) (best : option (nat * N))     (* next: load of ASIL-B slot i *)
| GCasQm (cnt i : nat) (v : N)
| GCasB (cnt i : nat) (v : N)
| GRestore (cnt i : nat) (v : N)                               (* SetSlotValue on QM *)
| GBScan (r i : nat) (best : option (nat * N))                 (* AllocateNextSlot on ASIL-B only *)
| GBCas (r i : nat) (v : N)
| GReadyB (i : nat) (t : N)
| GReadyQm (i : nat) (t : N)
| GDiscB (i : nat) | GDiscBSt (i : nat)
| GDiscQm (i : nat) | GDiscQmSt (i : nat)
| GDead
| GCleanQm (i : nat) | GCleanQmCas (i : nat)
| GCleanB (i : nat) | GCleanBCas (i : nat)
| GLatest (i : nat) (acc : N).

Record cst := mkC {
  qm : nat -> N;           (* QM control words *)
  cb : nat -> N;           (* ASIL-B control words *)
  cdata : nat -> N;        (* sample storage *)
  ccur : N;                (* current_timestamp_ *)
  cpc : gpc;
  cown : nat -> bool;      (* living SampleAllocateePtrs *)
  ignore : bool;           (* ignore_qm_control_ *)
  term : bool;             (* the provider process was terminated by itself *)
  qref : nat -> nat;       (* ghost: references held by well-behaved QM consumers *)
  bref : nat -> nat;       (* ghost: references held by ASIL-B consumers *)
  pubv : nat -> N          (* ghost: value of the last publication in the slot *)
}.

Definition c_qm s x := mkC x (cb s) (cdata s) (ccur s) (cpc s) (cown s) (ignore s) (term s) (qref s) (bref s) (pubv s).
Definition c_cb s x := mkC (qm s) x (cdata s) (ccur s) (cpc s) (cown s) (ignore s) (term s) (qref s) (bref s) (pubv s).
Definition c_data s x := mkC (qm s) (cb s) x (ccur s) (cpc s) (cown s) (ignore s) (term s) (qref s) (bref s) (pubv s).
Definition c_cur s x := mkC (qm s) (cb s) (cdata s) x (cpc s) (cown s) (ignore s) (term s) (qref s) (bref s) (pubv s).
Definition c_pc s x := mkC (qm s) (cb s) (cdata s) (ccur s) x (cown s) (ignore s) (term s) (qref s) (bref s) (pubv s).
Definition c_own s x := mkC (qm s) (cb s) (cdata s) (ccur s) (cpc s) x (ignore s) (term s) (qref s) (bref s) (pubv s).
Definition c_ignore s x := mkC (qm s) (cb s) (cdata s) (ccur s) (cpc s) (cown s) x (term s) (qref s) (bref s) (pubv s).
Definition c_term s := mkC (qm s) (cb s) (cdata s) (ccur s) (cpc s) (cown s) (ignore s) true (qref s) (bref s) (pubv s).
Definition c_qref s x := mkC (qm s) (cb s) (cdata s) (ccur s) (cpc s) (cown s) (ignore s) (term s) x (bref s) (pubv s).
Definition c_bref s x := mkC (qm s) (cb s) (cdata s) (ccur s) (cpc s) (cown s) (ignore s) (term s) (qref s) x (pubv s).
Definition c_pubv s x := mkC (qm s) (cb s) (cdata s) (ccur s) (cpc s) (cown s) (ignore s) (term s) (qref s) (bref s) x.

Section Composite.
Variable ns : nat.   (* number of slots *)
Variable nr : nat.   (* maximum number of references per slot and quality *)

(** event_data_control_composite.cpp:111-133 and 149-159: next attempt, or give up
    on the QM control and allocate in ASIL-B only *)
Definition next_multi (s : cst) (cnt : nat) : cst :=
  if S cnt <? MAX_MULTI then c_pc s (GScanQm (S cnt) 0 None)
  else c_pc (c_ignore s true) (GBScan 0 0 None).

(** provider_event_data_control_local_view.cpp:51-66 *)
Definition next_single (s : cst) (r : nat) : cst :=
  if S r <=? MAX_SINGLE then c_pc s (GBScan (S r) 0 None) else c_pc s GIdle.

Definition gstep (s : cst) : cst :=
  match cpc s with
  | GIdle | GDead => s
  (* event_data_control_composite.cpp:60-69 *)
  | GScanQm cnt i best =>
      if i <? ns then c_pc s (GScanB cnt i (qm s i) best)
      else match best with
           | None => next_multi s cnt
           | Some (j, v) => c_pc s (GCasQm cnt j v)
           end
  (* event_data_control_composite.cpp:69-94 *)
  | GScanB cnt i vq best =>
      let vb := cb s i in
      if is_invalid vb && negb (is_invalid vq) then next_multi s cnt
      else if negb (is_used vq) && negb (is_used vb) && (ts_of vb <? best_ts best)%N then
        if (vq =? vb)%N then c_pc s (GScanQm cnt (S i) (Some (i, vq))) else c_term s
      else c_pc s (GScanQm cnt (S i) best)
  (* event_data_control_composite.cpp:116-120 *)
  | GCasQm cnt i v =>
      if (qm s i =? v)%N then c_pc (c_qm s (fupd (qm s) i IN_WRITING)) (GCasB cnt i v)
      else next_multi s cnt
  (* event_data_control_composite.cpp:122-129 *)
  | GCasB cnt i v =>
      if (cb s i =? v)%N
      then c_pc (c_own (c_cb s (fupd (cb s) i IN_WRITING)) (fupd (cown s) i true)) GIdle
      else c_pc s (GRestore cnt i v)
  | GRestore cnt i v => next_multi (c_qm s (fupd (qm s) i v)) cnt
  (* provider_event_data_control_local_view.cpp:73-107, 146-163 on the ASIL-B control *)
  | GBScan r i best =>
      if i <? ns then
        let w := cb s i in
        if is_invalid w then c_pc s (GBCas r i w)
        else c_pc s (GBScan r (S i) (scan_oldest best i w))
      else match best with
           | None => next_single s r
           | Some (j, w) => c_pc s (GBCas r j w)
           end
  | GBCas r i w =>
      if (cb s i =? w)%N
      then c_pc (c_own (c_cb s (fupd (cb s) i IN_WRITING)) (fupd (cown s) i true)) GIdle
      else next_single s r
  (* event_data_control_composite.cpp:164-177 EventReady: ASIL-B first *)
  | GReadyB i t =>
      let s1 := c_cb s (fupd (cb s) i (mk_status t 0)) in
      let s2 := c_pubv (c_own s1 (fupd (cown s) i false)) (fupd (pubv s) i (cdata s i)) in
      if ignore s then c_pc s2 (GDiscB i) else c_pc s2 (GReadyQm i t)
  | GReadyQm i t => c_pc (c_qm s (fupd (qm s) i (mk_status t 0))) (GDiscB i)
  (* event_data_control_composite.cpp:180-191 Discard *)
  | GDiscB i => if is_in_writing (cb s i) then c_pc s (GDiscBSt i)
                else if ignore s then c_pc s GIdle else c_pc s (GDiscQm i)
  | GDiscBSt i =>
      let s1 := c_own (c_cb s (fupd (cb s) i INVALID_EVENT)) (fupd (cown s) i false) in
      if ignore s then c_pc s1 GIdle else c_pc s1 (GDiscQm i)
  | GDiscQm i => if is_in_writing (qm s i) then c_pc s (GDiscQmSt i) else c_pc s GIdle
  | GDiscQmSt i => c_pc (c_qm s (fupd (qm s) i INVALID_EVENT)) GIdle
  (* skeleton_memory_manager.cpp:375-392: RemoveAllocationsForWriting on the QM
     control, then on the ASIL-B control *)
  | GCleanQm i =>
      if i <? ns then
        if is_in_writing (qm s i) then c_pc s (GCleanQmCas i) else c_pc s (GCleanQm (S i))
      else c_pc s (GCleanB 0)
  | GCleanQmCas i =>
      if (qm s i =? IN_WRITING)%N then c_pc (c_qm s (fupd (qm s) i INVALID_EVENT)) (GCleanQm (S i))
      else c_term s
  | GCleanB i =>
      if i <? ns then
        if is_in_writing (cb s i) then c_pc s (GCleanBCas i) else c_pc s (GCleanB (S i))
      else c_pc s (GLatest 0 INVALID_TIMESTAMP)
  | GCleanBCas i =>
      if (cb s i =? IN_WRITING)%N
      then c_pc (c_own (c_cb s (fupd (cb s) i INVALID_EVENT)) (fupd (cown s) i false)) (GCleanB (S i))
      else c_term s
  (* event_data_control_composite.cpp:237-260; the composite is constructed anew, so
     ignore_qm_control_ is false again (44) *)
  | GLatest i acc =>
      if i <? ns then c_pc s (GLatest (S i) (latest_acc acc (cb s i)))
      else c_pc (c_ignore (c_cur s acc) false) GIdle
  end.

Inductive clabel :=
| KAlloc | KWrite (i : nat) (v : N) | KSend (i : nat) | KDrop (i : nat)  (* API calls of the provider's user *)
| KStep                                                                  (* next access of the provider *)
| KCrash | KRestart                                                      (* provider dies / offers again *)
| KQRef (i : nat) | KQUnref (i : nat)                                    (* well-behaved QM consumer *)
| KBRef (i : nat) | KBUnref (i : nat)                                    (* ASIL-B consumer *)
| KQmWrite (i : nat) (w : N).                                            (* misbehaving QM process *)

Definition idle (s : cst) : bool := match cpc s with GIdle => true | _ => false end.

Definition cstep (s : cst) (l : clabel) : cst :=
  match l with
  (* consumers go on even if the provider is gone *)
  | KQRef i =>
      if (i <? ns) && negb (is_invalid (qm s i)) && negb (is_in_writing (qm s i)) && (qref s i <? nr)
      then c_qref (c_qm s (fupd (qm s) i (w_inc (qm s i)))) (fupd (qref s) i (S (qref s i))) else s
  | KQUnref i =>
      match qref s i with
      | O => s
      | S k => c_qref (c_qm s (fupd (qm s) i (w_dec (qm s i)))) (fupd (qref s) i k)
      end
  | KBRef i =>
      if (i <? ns) && negb (is_invalid (cb s i)) && negb (is_in_writing (cb s i)) && (bref s i <? nr)
      then c_bref (c_cb s (fupd (cb s) i (w_inc (cb s i)))) (fupd (bref s) i (S (bref s i))) else s
  | KBUnref i =>
      match bref s i with
      | O => s
      | S k => c_bref (c_cb s (fupd (cb s) i (w_dec (cb s i)))) (fupd (bref s) i k)
      end
  | KQmWrite i w => c_qm s (fupd (qm s) i (w mod two64)%N)
  | _ =>
      if term s then s else
      match l with
      (* event_data_control_composite.cpp:137-161 *)
      | KAlloc => if idle s then c_pc s (if ignore s then GBScan 0 0 None else GScanQm 0 0 None) else s
      | KWrite i v => if idle s && cown s i then c_data s (fupd (cdata s) i v) else s
      | KSend i =>
          if idle s && cown s i then
            let t := ((ccur s + 1) mod two32)%N in c_pc (c_cur s t) (GReadyB i t)
          else s
      | KDrop i => if idle s && cown s i then c_pc s (GDiscB i) else s
      | KStep => gstep s
      | KCrash => c_pc s GDead
      | KRestart => match cpc s with GDead => c_pc s (GCleanQm 0) | _ => s end
      | _ => s
      end
  end.

Definition crun (s : cst) (ls : list clabel) : cst := fold_left cstep ls s.

Definition cinit : cst :=
  mkC (fun _ => INVALID_EVENT) (fun _ => INVALID_EVENT) (fun _ => 0%N) INVALID_TIMESTAMP GIdle
    (fun _ => false) false false (fun _ => 0) (fun _ => 0) (fun _ => 0%N).

End Composite.
