(** Inductive invariant of the event machine. *)
From Verif Require Import SlotModel SlotWord EventModel.
From Coq Require Import Sorting.Sorted.

Definition refs (nc : nat) (s : evst) (i : nat) : nat :=
  countb (fun c => counted (c_ph (cons s c) i)) nc.

Definition vts (s : evst) (i : nat) : N := ts_of (slots s i).
Definition published (s : evst) (i : nat) : Prop :=
  slots s i <> INVALID_EVENT /\ slots s i <> IN_WRITING.

Definition slot_ok (nc : nat) (s : evst) (i : nat) : Prop :=
  (slots s i = IN_WRITING /\ own s i = true /\ refs nc s i = 0) \/
  (slots s i = INVALID_EVENT /\ own s i = false /\ refs nc s i = 0) \/
  (exists t, nth_error (hist s) (sid s i) = Some (t, data s i) /\
     slots s i = word t (N.of_nat (refs nc s i)) /\ own s i = false).

Definition bits_of (p : phase) : bool * bool :=
  match p with
  | PhNone => (false, false)
  | PhTx | PhRef _ _ => (true, false)
  | PhBatch _ _ | PhHeld _ _ => (true, true)
  | PhD1 _ _ | PhD2 => (false, true)
  | PhOrph _ => (false, false)
  end.

Definition live (p : cpc) : bool :=
  match p with CDead | CFailed | CRb _ _ => false | _ => true end.

Inductive kind := KFree | KTx | KRef | KBatch | KOrph.
Definition kind_of (p : phase) : kind :=
  match p with
  | PhNone | PhHeld _ _ | PhD1 _ _ | PhD2 => KFree
  | PhTx => KTx
  | PhRef _ _ => KRef
  | PhBatch _ _ => KBatch
  | PhOrph _ => KOrph
  end.

Definition batch_of (p : cpc) : list nat :=
  match p with
  | CScan _ b _ _ _ _ | CTx _ b _ _ _ _ | CCas _ b _ _ _ _ | CAbort _ b _ _ _
  | CCommit _ b _ | CNewest _ b _ => b
  | CLoad _ b j => j :: b
  | CDeliver b => b
  | _ => []
  end.
Definition tx_slot (p : cpc) : option nat :=
  match p with CCas _ _ _ _ j _ | CAbort _ _ _ _ j => Some j | _ => None end.
Definition ref_slot (p : cpc) : option nat :=
  match p with CCommit _ _ j => Some j | _ => None end.
Definition is_deliver (p : cpc) : bool := match p with CDeliver _ => true | _ => false end.
Definition oeqb (o : option nat) (i : nat) : bool :=
  match o with Some j => Nat.eqb j i | None => false end.
Definition inb (i : nat) (l : list nat) : bool := existsb (Nat.eqb i) l.

Definition exp_kind (p : cpc) (i : nat) : kind :=
  if oeqb (tx_slot p) i then KTx
  else if oeqb (ref_slot p) i then KRef
  else if inb i (batch_of p) then KBatch
  else KFree.

(** the slot is free from this consumer's point of view *)
Definition pickable (p : phase) : Prop := p = PhNone \/ p = PhD2.

Definition cand_ok (ns : nat) (k : consumer) (up : N) (j : nat) (w : N) : Prop :=
  (j < ns)%nat /\ (c_last k < ts_of w)%N /\ (ts_of w < up)%N.

Definition up_ok (s : evst) (b : list nat) (up : N) : Prop :=
  (up <= TIMESTAMP_MAX)%N /\ forall i, In i b -> (up <= vts s i)%N.

Definition pc_c_ok (ns : nat) (s : evst) (k : consumer) : Prop :=
  match c_pc k with
  | CScan n b up r i cand =>
      up_ok s b up /\
      match cand with
      | None => True
      | Some (j, w) => cand_ok ns k up j w /\ pickable (c_ph k j)
      end
  | CTx n b up r j w => up_ok s b up /\ cand_ok ns k up j w /\ pickable (c_ph k j)
  | CCas n b up r j w => up_ok s b up /\ cand_ok ns k up j w /\ ~ In j b
  | CAbort n b up r j => up_ok s b up /\ (j < ns)%nat /\ ~ In j b
  | CCommit n b j =>
      (j < ns)%nat /\ (c_last k < vts s j)%N /\ (forall i, In i b -> (vts s j < vts s i)%N)
  | CNewest todo b newest =>
      (c_last k <= newest)%N /\
      exists done, b = done ++ todo /\ forall i, In i done -> (vts s i <= newest)%N
  | _ => True
  end.

Definition tagged (p : phase) : option (nat * N) :=
  match p with
  | PhRef id t | PhBatch id t | PhHeld id t | PhD1 id t => Some (id, t)
  | _ => None
  end.
Definition delivered_ph (p : phase) : bool :=
  match p with PhHeld _ _ | PhD1 _ _ => true | _ => false end.

Record live_ok (ns : nat) (s : evst) (k : consumer) : Prop := {
  L_bits : forall i, i < ns -> (c_begin k i, c_end k i) = bits_of (c_ph k i);
  L_kind : forall i, i < ns -> kind_of (c_ph k i) = exp_kind (c_pc k) i;
  L_held : forall i, i < ns -> delivered_ph (c_ph k i) = true -> (vts s i <= c_last k)%N;
  L_sorted : StronglySorted (fun i j => (vts s i < vts s j)%N) (batch_of (c_pc k));
  L_range : forall i, In i (batch_of (c_pc k)) -> i < ns;
  L_last : forall i, In i (batch_of (c_pc k)) ->
             if is_deliver (c_pc k) then (vts s i <= c_last k)%N else (c_last k < vts s i)%N;
  L_pc : pc_c_ok ns s k;
  L_dsorted : StronglySorted lt (c_deliv k);
  L_dhist : forall id, In id (c_deliv k) -> id < length (hist s);
  L_dnew : forall id i, In id (c_deliv k) -> i < ns -> published s i -> (c_last k < vts s i)%N -> id < sid s i;
  L_dbatch : forall id i, In id (c_deliv k) -> is_deliver (c_pc k) = true -> In i (batch_of (c_pc k)) -> id < sid s i;
}.

Record dead_ok (ns : nat) (k : consumer) : Prop := {
  D_ph : forall i, i < ns -> (exists b, c_ph k i = PhOrph b) \/ c_ph k i = PhNone;
  D_none : forall i, i < ns -> c_begin k i = false -> c_end k i = false -> counted (c_ph k i) = false;
  D_full : forall i, i < ns -> c_begin k i = true -> c_end k i = true -> counted (c_ph k i) = true;
  D_rb : match c_pc k with
         | CRb i st =>
             (forall j, j < i -> j < ns -> c_ph k j = PhNone /\ c_begin k j = false /\ c_end k j = false) /\
             match st with
             | 0 => True
             | 1 => i < ns /\ c_begin k i = false /\ c_end k i = true /\ c_ph k i = PhOrph true
             | _ => i < ns /\ c_begin k i = false /\ c_end k i = true /\ c_ph k i = PhOrph false
             end
         | _ => True
         end;
}.

Record cons_ok (ns : nat) (s : evst) (k : consumer) : Prop := {
  K_tag : forall i id t, i < ns -> tagged (c_ph k i) = Some (id, t) -> id = sid s i /\ t = vts s i;
  K_live : if live (c_pc k) then live_ok ns s k else dead_ok ns k;
}.

Definition alive (p : ppc) : bool :=
  match p with PDead | PClean _ | PCleanCas _ | PLatest _ _ => false | _ => true end.

Definition pc_p_ok (ns : nat) (B : N) (s : evst) : Prop :=
  match pc s with
  | PIdle | PDead | PClean _ => True
  | PScan r i best =>
      match best with
      | None => True
      | Some (j, w) => (j < ns)%nat /\ w <> IN_WRITING /\ rc_of w = 0%N
      end
  | PCas r i w => (i < ns)%nat /\ w <> IN_WRITING /\ rc_of w = 0%N
  | PReady i t => (i < ns)%nat /\ own s i = true /\ t = cur s /\ (0 < t)%N /\
                  forall j, j < ns -> published s j -> (vts s j < t)%N
  | PDisc i => (i < ns)%nat
  | PDiscSt i => (i < ns)%nat /\ slots s i = IN_WRITING
  | PCleanCas i => (i < ns)%nat /\ slots s i = IN_WRITING
  | PLatest i acc => (acc <= B)%N /\ forall j, j < i -> j < ns -> published s j -> (vts s j <= acc)%N
  end.

Record Inv (ns nc : nat) (B : N) (s : evst) : Prop := {
  I_abort : abort s = false;
  I_slot : forall i, i < ns -> slot_ok nc s i;
  I_hist : forall t v, In (t, v) (hist s) -> (0 < t /\ t <= B)%N;
  I_sid : forall i, i < ns -> published s i -> sid s i < length (hist s);
  I_inj : forall i j, i < ns -> j < ns -> published s i -> published s j -> sid s i = sid s j -> i = j;
  I_ord : forall i j, i < ns -> j < ns -> published s i -> published s j -> sid s i < sid s j -> (vts s i < vts s j)%N;
  I_own : forall i, own s i = true -> i < ns;
  I_cur : (cur s <= B)%N;
  I_curmax : alive (pc s) = true -> forall i, i < ns -> published s i -> (vts s i <= cur s)%N;
  I_pc : pc_p_ok ns B s;
  I_cons : forall c, c < nc -> cons_ok ns s (cons s c);
}.
