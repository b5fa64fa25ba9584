(** Proofs about the gateway's message encoding. *)
From Verif Require Import Base GwCodecModel.
Local Open Scope N_scope.

(** * The wire format, stated on its own *)
Fixpoint enc (v : value) : byte_list :=
  match v with
  | VStr s => s ++ [0]
  | VBlob b => b
  | VVec vs => le16 (N.of_nat (length vs)) ++ concat (map enc vs)
  | VStruct vs => concat (map enc vs)
  end.

(** Values of a type that the format can represent. *)
Inductive good : ty -> value -> Prop :=
| g_str s : s <> [] -> ~ In 0 s -> good TStr (VStr s)
| g_blob n b : len b = n -> good (TBlob n) (VBlob b)
| g_vec t vs : N.of_nat (length vs) <= 65535 -> Forall (good t) vs -> good (TVec t) (VVec vs)
| g_struct ts vs : Forall2 good ts vs -> good (TStruct ts) (VStruct vs).

(** No vector with more than 65535 elements *)
Inductive small_vecs : value -> Prop :=
| sv_str s : small_vecs (VStr s)
| sv_blob b : small_vecs (VBlob b)
| sv_vec vs : N.of_nat (length vs) <= 65535 -> Forall small_vecs vs -> small_vecs (VVec vs)
| sv_struct vs : Forall small_vecs vs -> small_vecs (VStruct vs).

Section Ind.
Variable P : value -> Prop.
Hypothesis Hs : forall s, P (VStr s).
Hypothesis Hb : forall b, P (VBlob b).
Hypothesis Hv : forall vs, Forall P vs -> P (VVec vs).
Hypothesis Ht : forall vs, Forall P vs -> P (VStruct vs).
Fixpoint value_ind' (v : value) : P v :=
  match v with
  | VStr s => Hs s
  | VBlob b => Hb b
  | VVec vs => Hv vs ((fix go l := match l return Forall P l with [] => Forall_nil _ | x :: l => Forall_cons _ (value_ind' x) (go l) end) vs)
  | VStruct vs => Ht vs ((fix go l := match l return Forall P l with [] => Forall_nil _ | x :: l => Forall_cons _ (value_ind' x) (go l) end) vs)
  end.
End Ind.
Section IndT.
Variable P : ty -> Prop.
Hypothesis Hs : P TStr.
Hypothesis Hb : forall n, P (TBlob n).
Hypothesis Hv : forall t, P t -> P (TVec t).
Hypothesis Ht : forall ts, Forall P ts -> P (TStruct ts).
Fixpoint ty_ind' (t : ty) : P t :=
  match t with
  | TStr => Hs
  | TBlob n => Hb n
  | TVec t => Hv t (ty_ind' t)
  | TStruct ts => Ht ts ((fix go l := match l return Forall P l with [] => Forall_nil _ | x :: l => Forall_cons _ (ty_ind' x) (go l) end) ts)
  end.
End IndT.

(** * Lists and words *)
Lemma len_app a b : len (a ++ b) = len a + len b.
Proof. unfold len. rewrite app_length. lia. Qed.
Lemma len_cons x b : len (x :: b) = 1 + len b.
Proof. unfold len. cbn [length]. lia. Qed.
Lemma len_firstn n l : n <= len l -> len (firstn (N.to_nat n) l) = n.
Proof. unfold len. intros H. rewrite firstn_length_le by lia. lia. Qed.
Lemma len_skipn n l : len (skipn (N.to_nat n) l) = len l - n.
Proof. unfold len. rewrite skipn_length. lia. Qed.
Lemma u32_small n : n < 4294967296 -> u32 n = n.
Proof. apply N.mod_small. Qed.
Lemma firstn_len_app a b : firstn (N.to_nat (len a)) (a ++ b) = a.
Proof. unfold len. rewrite Nnat.Nat2N.id. rewrite firstn_app, firstn_all, Nat.sub_diag. cbn. apply app_nil_r. Qed.
Lemma skipn_len_app a b : skipn (N.to_nat (len a)) (a ++ b) = b.
Proof. unfold len. rewrite Nnat.Nat2N.id. rewrite skipn_app, skipn_all, Nat.sub_diag. reflexivity. Qed.
Lemma skipn_skipn n m (l : byte_list) : skipn (N.to_nat n) (skipn (N.to_nat m) l) = skipn (N.to_nat (m + n)) l.
Proof.
  replace (N.to_nat (m + n)) with (N.to_nat m + N.to_nat n)%nat by lia. generalize (N.to_nat m) (N.to_nat n). clear.
  intros a b. revert l. induction a as [|a IH]; intros l; cbn [skipn Nat.add]; [reflexivity|]. destruct l; [destruct b; reflexivity|]. apply IH.
Qed.

Lemma write_at_0 buf b : len b <= len buf -> write_at buf 0 b = Some (b ++ skipn (N.to_nat (len b)) buf).
Proof. intros H. unfold write_at. rewrite N.add_0_l. destruct (N.leb_spec (len b) (len buf)); [reflexivity|lia]. Qed.

Lemma le16_len n : len (le16 n) = 2. Proof. reflexivity. Qed.
Lemma of_le16_le16 n : n <= 65535 -> of_le16 (le16 n) = n.
Proof.
  intros H. unfold le16, of_le16. assert (n / 256 < 256) by (apply N.div_lt_upper_bound; lia).
  rewrite (N.mod_small (n / 256)) by lia. rewrite N.add_comm. symmetry. apply N.div_mod. lia.
Qed.
Lemma le16_of_le16 x y : x < 256 -> y < 256 -> le16 (of_le16 [x; y]) = [x; y].
Proof.
  intros X Y. unfold le16, of_le16. f_equal; [|f_equal].
  - rewrite N.mul_comm, N.mod_add by lia. apply N.mod_small. exact X.
  - rewrite N.mul_comm, N.div_add by lia. rewrite N.div_small by exact X. rewrite N.add_0_l. apply N.mod_small. exact Y.
Qed.
Lemma of_le32_le32 n : n < 4294967296 -> of_le32 (le32 n) = n.
Proof.
  intros H. unfold le32, of_le32.
  assert (A1 : n / 256 < 16777216) by (apply N.div_lt_upper_bound; lia).
  assert (A2 : n / 65536 = n / 256 / 256) by (rewrite N.div_div by lia; reflexivity).
  assert (A3 : n / 16777216 = n / 256 / 256 / 256) by (rewrite !N.div_div by lia; reflexivity).
  rewrite A2, A3. set (a := n / 256) in *. set (b := a / 256) in *. set (c := b / 256) in *.
  assert (B : b < 65536) by (apply N.div_lt_upper_bound; lia). assert (C : c < 256) by (apply N.div_lt_upper_bound; lia).
  rewrite (N.mod_small c) by exact C.
  assert (Eb : b = b mod 256 + 256 * c) by (rewrite N.add_comm; apply N.div_mod; lia).
  assert (Ea : a = a mod 256 + 256 * b) by (rewrite N.add_comm; apply N.div_mod; lia).
  assert (En : n = n mod 256 + 256 * a) by (rewrite N.add_comm; apply N.div_mod; lia).
  rewrite <- Eb, <- Ea, <- En. reflexivity.
Qed.
Lemma of_le32_bound b : length b = 4%nat -> Forall (fun x => x < 256) b -> of_le32 b < 4294967296 /\ le32 (of_le32 b) = b.
Proof.
  destruct b as [|w [|x [|y [|z [|]]]]]; cbn [length]; try lia. intros _ F. inversion_clear F as [|? ? W F1]. inversion_clear F1 as [|? ? X F2].
  inversion_clear F2 as [|? ? Y F3]. inversion_clear F3 as [|? ? Z _]. unfold of_le32, le32. split; [lia|].
  set (c := y + 256 * z). set (b := x + 256 * c). 
  assert (D1 : (w + 256 * b) / 256 = b) by (rewrite N.mul_comm, N.div_add by lia; rewrite N.div_small by lia; lia).
  assert (D2 : b / 256 = c) by (unfold b; rewrite N.mul_comm, N.div_add by lia; rewrite N.div_small by lia; lia).
  assert (D3 : c / 256 = z) by (unfold c; rewrite N.mul_comm, N.div_add by lia; rewrite N.div_small by lia; lia).
  assert (M1 : (w + 256 * b) mod 256 = w) by (rewrite N.mul_comm, N.mod_add by lia; apply N.mod_small; lia).
  assert (M2 : b mod 256 = x) by (unfold b; rewrite N.mul_comm, N.mod_add by lia; apply N.mod_small; lia).
  assert (M3 : c mod 256 = y) by (unfold c; rewrite N.mul_comm, N.mod_add by lia; apply N.mod_small; lia).
  replace (65536) with (256 * 256) by reflexivity. replace 16777216 with (256 * 256 * 256) by reflexivity. rewrite <- !N.div_div by lia.
  rewrite D1, D2, D3, M1, M2, M3. rewrite (N.mod_small z) by exact Z. reflexivity.
Qed.

(** * Size *)
Lemma fold_size vs : forall n, fold_left (fun size v => size + csize v) vs n = n + fold_left (fun size v => size + csize v) vs 0.
Proof. induction vs as [|v vs IH]; intros n; cbn [fold_left]; [lia|]. rewrite IH, (IH (0 + csize v)). lia. Qed.
Definition sizes vs := fold_left (fun size v => size + csize v) vs 0.
Lemma sizes_cons v vs : sizes (v :: vs) = csize v + sizes vs.
Proof. unfold sizes. cbn [fold_left]. rewrite fold_size. lia. Qed.

Lemma enc_len v : len (enc v) = csize v.
Proof.
  induction v as [s|b|vs IH|vs IH] using value_ind'; cbn [enc csize].
  - rewrite len_app. reflexivity.
  - reflexivity.
  - rewrite fold_size. rewrite len_app, le16_len. f_equal. fold (sizes vs).
    induction IH as [|v vs E _ IH2]; [reflexivity|]. cbn [map concat]. rewrite len_app, IH2, E, sizes_cons. reflexivity.
  - fold (sizes vs). induction IH as [|v vs E _ IH2]; [reflexivity|]. cbn [map concat]. rewrite len_app, IH2, E, sizes_cons. reflexivity.
Qed.
Lemma encs_len vs : len (concat (map enc vs)) = sizes vs.
Proof. induction vs as [|v vs IH]; [reflexivity|]. cbn [map concat]. rewrite len_app, enc_len, sizes_cons, IH. reflexivity. Qed.

(** * Serialize *)
Fixpoint vec_go (vs : list value) (copied_size : N) (buf : byte_list) : sres :=
  match vs with
  | [] => SOk copied_size buf
  | v :: vs =>
      if len buf <? copied_size then SUB
      else match ser v (skipn (N.to_nat copied_size) buf) with
           | SOk n b => vec_go vs (u32 (copied_size + n)) (firstn (N.to_nat copied_size) buf ++ b)
           | SErr b => SErr (firstn (N.to_nat copied_size) buf ++ b)
           | SUB => SUB
           end
  end.
Fixpoint struct_go (vs : list value) (off total_written_bytes : N) (buf : byte_list) : sres :=
  match vs with
  | [] => SOk total_written_bytes buf
  | v :: vs =>
      if len buf <? off then SUB
      else match ser v (skipn (N.to_nat off) buf) with
           | SOk n b => struct_go vs (off + n) (u32 (total_written_bytes + n)) (firstn (N.to_nat off) buf ++ b)
           | SErr b => SErr (firstn (N.to_nat off) buf ++ b)
           | SUB => SUB
           end
  end.
Lemma ser_vec vs buf : ser (VVec vs) buf =
  if 65535 <? N.of_nat (length vs) then SErr buf
  else if len buf <? 2 then SErr buf
  else match write_at buf 0 (le16 (N.of_nat (length vs))) with None => SUB | Some buf1 => vec_go vs 2 buf1 end.
Proof. reflexivity. Qed.
Lemma ser_struct vs buf : ser (VStruct vs) buf = struct_go vs 0 0 buf.
Proof. reflexivity. Qed.

Definition ser_spec (v : value) : Prop := forall buf, len buf < 4294967296 ->
  match ser v buf with
  | SOk n b => n = csize v /\ csize v <= len buf /\ b = enc v ++ skipn (N.to_nat (csize v)) buf /\ small_vecs v
  | SErr b => len b = len buf /\ (small_vecs v -> len buf < csize v)
  | SUB => False
  end.

Lemma struct_go_spec vs : Forall ser_spec vs -> forall pre buf, len pre + len buf < 4294967296 ->
  match struct_go vs (len pre) (len pre) (pre ++ buf) with
  | SOk n b => n = len pre + sizes vs /\ sizes vs <= len buf /\ b = pre ++ concat (map enc vs) ++ skipn (N.to_nat (sizes vs)) buf /\ Forall small_vecs vs
  | SErr b => len b = len pre + len buf /\ (Forall small_vecs vs -> len buf < sizes vs)
  | SUB => False
  end.
Proof.
  induction 1 as [|v vs H _ IH]; intros pre buf L; cbn [struct_go].
  - unfold sizes. cbn. split; [lia|]. split; [lia|]. split; [reflexivity|constructor].
  - rewrite len_app. destruct (N.ltb_spec (len pre + len buf) (len pre)); [lia|].
    rewrite firstn_len_app, skipn_len_app. rewrite sizes_cons.
    pose proof (H buf ltac:(lia)) as HV. destruct (ser v buf) as [n b|b|]; [| |exact HV].
    + destruct HV as (-> & C & -> & SV). rewrite (u32_small (len pre + csize v)) by lia.
      replace (pre ++ enc v ++ skipn (N.to_nat (csize v)) buf) with ((pre ++ enc v) ++ skipn (N.to_nat (csize v)) buf) by (rewrite app_assoc; reflexivity).
      assert (LP : len pre + csize v = len (pre ++ enc v)) by (rewrite len_app, enc_len; reflexivity). rewrite LP.
      specialize (IH (pre ++ enc v) (skipn (N.to_nat (csize v)) buf)). rewrite len_skipn in IH. specialize (IH ltac:(lia)).
      destruct (struct_go vs _ _ _) as [n b|b|]; [| |exact IH].
      * destruct IH as (-> & B & -> & F). split; [lia|]. split; [lia|]. split; [|constructor; auto].
        rewrite skipn_skipn. cbn [map concat]. rewrite <- !app_assoc. reflexivity.
      * destruct IH as (E & F). split; [lia|]. intros G. inversion_clear G. specialize (F ltac:(assumption)). lia.
    + destruct HV as (E & F). rewrite len_app. split; [lia|]. intros G. inversion_clear G. specialize (F ltac:(assumption)). lia.
Qed.

Lemma vec_go_struct vs : Forall ser_spec vs -> forall pre buf, len pre + len buf < 4294967296 ->
  vec_go vs (len pre) (pre ++ buf) = struct_go vs (len pre) (len pre) (pre ++ buf).
Proof.
  induction 1 as [|v vs H _ IH]; intros pre buf L; cbn [struct_go vec_go]; [reflexivity|].
  destruct (_ <? _); [reflexivity|]. rewrite firstn_len_app, skipn_len_app.
  pose proof (H buf ltac:(lia)) as HV. destruct (ser v buf) as [n b|b|]; [|reflexivity|reflexivity].
  destruct HV as (-> & C & -> & SV). rewrite (u32_small (len pre + csize v)) by lia.
  replace (pre ++ enc v ++ skipn (N.to_nat (csize v)) buf) with ((pre ++ enc v) ++ skipn (N.to_nat (csize v)) buf) by (rewrite app_assoc; reflexivity).
  assert (LP : len pre + csize v = len (pre ++ enc v)) by (rewrite len_app, enc_len; reflexivity). rewrite LP.
  apply IH. rewrite len_skipn. lia.
Qed.

Lemma ser_ok v : ser_spec v.
Proof.
  induction v as [s|b|vs IH|vs IH] using value_ind'; intros buf L.
  - cbn [ser csize enc]. destruct (N.ltb_spec (len buf) (len s + 1)); [auto|].
    rewrite write_at_0 by lia. unfold write_at. rewrite len_app, len_skipn. change (len [0]) with 1.
    destruct (N.leb_spec (len s + 1) (len s + (len buf - len s))); [|lia]. split; [apply u32_small; lia|]. split; [lia|]. split; [|constructor].
    rewrite firstn_len_app. rewrite <- app_assoc. do 2 f_equal.
    replace (N.to_nat (len s + 1)) with (N.to_nat (len s) + 1)%nat by lia. rewrite skipn_app.
    replace (N.to_nat (len s)) with (length s) by (unfold len; lia).
    rewrite skipn_all2 by lia. replace (length s + 1 - length s)%nat with 1%nat by lia. cbn [app]. clear.
    revert s. intros s. generalize (length s). clear. intros n. revert buf. induction n as [|n IH]; intros buf; [reflexivity|]. destruct buf; [reflexivity|]. apply IH.
  - cbn [ser csize enc]. destruct (N.ltb_spec (len buf) (len b)); [auto|]. rewrite write_at_0 by lia. rewrite u32_small by lia.
    split; [reflexivity|]. split; [lia|]. split; [reflexivity|constructor].
  - rewrite ser_vec. cbn [csize enc]. rewrite fold_size. fold (sizes vs).
    destruct (N.ltb_spec 65535 (N.of_nat (length vs))); [split; [reflexivity|]; intros G; inversion_clear G; lia|].
    destruct (N.ltb_spec (len buf) 2); [split; [reflexivity|]; intros _; lia|].
    rewrite write_at_0 by (rewrite le16_len; lia). set (c := le16 _). assert (C2 : len c = 2) by reflexivity. clearbody c.
    replace (vec_go vs 2) with (vec_go vs (len c)) by (rewrite C2; reflexivity).
    rewrite vec_go_struct by (try exact IH; rewrite len_skipn, C2; lia).
    pose proof (struct_go_spec vs IH c (skipn (N.to_nat (len c)) buf)) as G. rewrite len_skipn in G. rewrite C2 in *. specialize (G ltac:(lia)).
    destruct (struct_go vs 2 2 _) as [n b|b|]; [| |exact G].
    + destruct G as (-> & B & -> & F). split; [reflexivity|]. split; [lia|]. split; [|constructor; [lia|exact F]].
      rewrite skipn_skipn. rewrite <- app_assoc. reflexivity.
    + destruct G as (E & F). split; [lia|]. intros X. inversion_clear X. specialize (F ltac:(assumption)). lia.
  - rewrite ser_struct. cbn [csize enc]. fold (sizes vs). pose proof (struct_go_spec vs IH [] buf) as G. specialize (G ltac:(change (len []) with 0; lia)).
    change (len []) with 0 in G. cbn [app] in G. destruct (struct_go vs 0 0 buf) as [n b|b|]; [| |exact G].
    + destruct G as (-> & B & -> & F). split; [lia|]. split; [lia|]. split; [reflexivity|constructor; exact F].
    + destruct G as (E & F). split; [lia|]. intros X. inversion_clear X. specialize (F ltac:(assumption)). lia.
Qed.

(** * Deserialize *)
Section Go.
Variable t : ty.
Variable src : byte_list.
Fixpoint dvec_go (k : nat) (bytes_consumed : N) (acc : list value) : dres :=
  match k with
  | O => DOk (VVec (rev acc)) bytes_consumed
  | S k =>
      if len src <? bytes_consumed then DUB
      else match des t (skipn (N.to_nat bytes_consumed) src) with
           | DOk v n => dvec_go k (u32 (bytes_consumed + n)) (v :: acc)
           | DErr => DErr
           | DUB => DUB
           end
  end.
Fixpoint dstruct_go (ts : list ty) (off total_consumed_bytes : N) (acc : list value) : dres :=
  match ts with
  | [] => DOk (VStruct (rev acc)) total_consumed_bytes
  | t :: ts =>
      if len src <? off then DUB
      else match des t (skipn (N.to_nat off) src) with
           | DOk v n => dstruct_go ts (off + n) (u32 (total_consumed_bytes + n)) (v :: acc)
           | DErr => DErr
           | DUB => DUB
           end
  end.
End Go.
Lemma des_vec t src : des (TVec t) src =
  if len src <? 2 then DErr
  else match read_at src 0 2 with None => DUB | Some c => dvec_go t src (N.to_nat (of_le16 c)) 2 [] end.
Proof. reflexivity. Qed.
Lemma des_struct ts src : des (TStruct ts) src = dstruct_go src ts 0 0 [].
Proof. reflexivity. Qed.

Lemma strnlen_spec src : exists l, strnlen src (length src) = Some l /\ (l <= length src)%nat /\ ~ In 0 (firstn l src) /\
  ((l < length src)%nat -> nth_error src l = Some 0).
Proof.
  induction src as [|b src (l & E & L & NI & Z)]; cbn [strnlen length]; [exists 0%nat; cbn; repeat split; auto; lia|].
  destruct (N.eqb_spec b 0) as [->|NB].
  - exists 0%nat. cbn. repeat split; auto; lia.
  - rewrite E. exists (S l). cbn. split; [reflexivity|]. split; [lia|]. split; [intros [X|X]; [congruence|tauto]|]. intros X. apply Z. lia.
Qed.
Lemma strnlen_at s rest : ~ In 0 s -> strnlen (s ++ 0 :: rest) (length (s ++ 0 :: rest)) = Some (length s).
Proof.
  induction s as [|b s IH]; cbn [app length strnlen]; intros NI.
  - reflexivity.
  - destruct (N.eqb_spec b 0) as [->|NB]; [destruct NI; left; reflexivity|]. rewrite IH; [reflexivity|]. intros X. apply NI. right. exact X.
Qed.

Definition is_bytes (l : byte_list) : Prop := Forall (fun x => x < 256) l.

Definition des_spec (t : ty) : Prop :=
  (forall v rest, good t v -> len (enc v ++ rest) < 4294967296 -> des t (enc v ++ rest) = DOk v (len (enc v))) /\
  (forall src, len src < 4294967296 -> is_bytes src ->
     match des t src with
     | DOk v n => good t v /\ n = len (enc v) /\ exists rest, src = enc v ++ rest
     | DErr => True
     | DUB => False
     end).

Lemma is_bytes_app a b : is_bytes (a ++ b) <-> is_bytes a /\ is_bytes b.
Proof. apply Forall_app. Qed.

Lemma dstruct_enc ts : Forall des_spec ts -> forall vs, Forall2 good ts vs -> forall pre rest acc,
  len (pre ++ concat (map enc vs) ++ rest) < 4294967296 ->
  dstruct_go (pre ++ concat (map enc vs) ++ rest) ts (len pre) (len pre) acc = DOk (VStruct (rev acc ++ vs)) (len (pre ++ concat (map enc vs))).
Proof.
  induction 1 as [|t ts H _ IH]; intros vs G; inversion_clear G as [|? v ? vs' Gv Gs]; intros pre rest acc L; cbn [dstruct_go].
  - cbn. rewrite !app_nil_r. reflexivity.
  - cbn [map concat] in *. rewrite <- app_assoc in *. rewrite len_app in L.
    match goal with |- context [len ?b <? ?a] => destruct (N.ltb_spec (len b) a) as [LT|_]; [rewrite len_app in LT; lia|] end.
    rewrite skipn_len_app. destruct H as [H _]. rewrite H; [|exact Gv|lia].
    rewrite len_app in L. rewrite (u32_small (len pre + len (enc v))) by lia. rewrite <- len_app.
    specialize (IH vs' Gs (pre ++ enc v) rest (v :: acc)). rewrite <- !app_assoc in IH. rewrite IH.
    + f_equal. cbn [rev]. rewrite <- app_assoc. reflexivity.
    + rewrite !len_app in *. lia.
Qed.
Lemma dvec_enc t : des_spec t -> forall vs, Forall (good t) vs -> forall pre rest acc,
  len (pre ++ concat (map enc vs) ++ rest) < 4294967296 ->
  dvec_go t (pre ++ concat (map enc vs) ++ rest) (length vs) (len pre) acc = DOk (VVec (rev acc ++ vs)) (len (pre ++ concat (map enc vs))).
Proof.
  intros H. induction 1 as [|v vs Gv _ IH]; intros pre rest acc L; cbn [dvec_go length].
  - cbn. rewrite !app_nil_r. reflexivity.
  - cbn [map concat] in *. rewrite <- app_assoc in *. rewrite len_app in L.
    match goal with |- context [len ?b <? ?a] => destruct (N.ltb_spec (len b) a) as [LT|_]; [rewrite len_app in LT; lia|] end.
    rewrite skipn_len_app. destruct H as [H _]. rewrite H; [|exact Gv|lia].
    rewrite len_app in L. rewrite (u32_small (len pre + len (enc v))) by lia. rewrite <- len_app.
    specialize (IH (pre ++ enc v) rest (v :: acc)). rewrite <- !app_assoc in IH. rewrite IH.
    + f_equal. cbn [rev]. rewrite <- app_assoc. reflexivity.
    + rewrite !len_app in *. lia.
Qed.

Lemma dstruct_dec ts : Forall des_spec ts -> forall pre src acc, len (pre ++ src) < 4294967296 -> is_bytes src ->
  match dstruct_go (pre ++ src) ts (len pre) (len pre) acc with
  | DOk v n => exists vs rest, v = VStruct (rev acc ++ vs) /\ Forall2 good ts vs /\ src = concat (map enc vs) ++ rest /\ n = len pre + len (concat (map enc vs))
  | DErr => True
  | DUB => False
  end.
Proof.
  induction 1 as [|t ts H _ IH]; intros pre src acc L B; cbn [dstruct_go].
  - exists [], src. rewrite app_nil_r. cbn [map concat]. change (len []) with 0. repeat split; auto; lia.
  - rewrite len_app in *. destruct (N.ltb_spec (len pre + len src) (len pre)); [lia|]. rewrite skipn_len_app.
    destruct H as [_ H]. pose proof (H src ltac:(lia) B) as HV. destruct (des t src) as [v n| |]; [|exact I|exact HV].
    destruct HV as (Gv & -> & rest & ->). rewrite len_app in L. rewrite (u32_small (len pre + len (enc v))) by lia.
    rewrite app_assoc. rewrite <- len_app. apply is_bytes_app in B. destruct B as [B1 B2].
    specialize (IH (pre ++ enc v) rest (v :: acc)). rewrite !len_app in *. specialize (IH ltac:(lia) B2).
    destruct (dstruct_go _ ts _ _ _) as [w m| |]; [|exact I|exact IH].
    destruct IH as (vs & r & -> & F & -> & ->). exists (v :: vs), r. cbn [rev map concat]. rewrite <- !app_assoc. rewrite !len_app. repeat split; auto. lia.
Qed.
Lemma dvec_dec t : des_spec t -> forall k pre src acc, len (pre ++ src) < 4294967296 -> is_bytes src ->
  match dvec_go t (pre ++ src) k (len pre) acc with
  | DOk v n => exists vs rest, v = VVec (rev acc ++ vs) /\ Forall (good t) vs /\ length vs = k /\ src = concat (map enc vs) ++ rest /\ n = len pre + len (concat (map enc vs))
  | DErr => True
  | DUB => False
  end.
Proof.
  intros H. induction k as [|k IH]; intros pre src acc L B; cbn [dvec_go].
  - exists [], src. rewrite app_nil_r. cbn [map concat]. change (len []) with 0. repeat split; auto; lia.
  - rewrite len_app in *. destruct (N.ltb_spec (len pre + len src) (len pre)); [lia|]. rewrite skipn_len_app.
    destruct H as [_ H]. pose proof (H src ltac:(lia) B) as HV. destruct (des t src) as [v n| |]; [|exact I|exact HV].
    destruct HV as (Gv & -> & rest & ->). rewrite len_app in L. rewrite (u32_small (len pre + len (enc v))) by lia.
    rewrite app_assoc. rewrite <- len_app. apply is_bytes_app in B. destruct B as [B1 B2].
    specialize (IH (pre ++ enc v) rest (v :: acc)). rewrite !len_app in *. specialize (IH ltac:(lia) B2).
    destruct (dvec_go t _ k _ _) as [w m| |]; [|exact I|exact IH].
    destruct IH as (vs & r & -> & F & LK & -> & ->). exists (v :: vs), r. cbn [rev map concat length]. rewrite <- !app_assoc. rewrite !len_app. repeat split; auto; lia.
Qed.

Lemma des_ok t : des_spec t.
Proof.
  induction t as [|n|t IH|ts IH] using ty_ind'; split.
  - intros v rest G. inversion_clear G as [s NE NI| | |]. intros L. cbn [enc des] in *. rewrite <- app_assoc in *. cbn [app] in *.
    rewrite strnlen_at by exact NI. fold (len s). rewrite len_app, len_cons in L. rewrite len_app, len_cons.
    destruct (N.eqb_spec (len s) (len s + (1 + len rest))); [lia|]. destruct (N.eqb_spec (len s) 0) as [E|_].
    { destruct s; [congruence|]. rewrite len_cons in E. lia. }
    cbn [orb]. unfold read_at. rewrite len_app, len_cons. destruct (N.leb_spec (0 + len s) (len s + (1 + len rest))); [|lia].
    change (N.to_nat 0) with 0%nat. cbn [skipn]. rewrite firstn_len_app. rewrite u32_small by lia. rewrite len_app, len_cons. reflexivity.
  - intros src L B. cbn [des]. destruct (strnlen_spec src) as (l & -> & LE & NI & Z).
    unfold len. destruct (N.eqb_spec (N.of_nat l) (N.of_nat (length src))); cbn [orb]; [exact I|].
    destruct (N.eqb_spec (N.of_nat l) 0); [exact I|]. unfold read_at, len. destruct (N.leb_spec (0 + N.of_nat l) (N.of_nat (length src))); [|lia].
    change (N.to_nat 0) with 0%nat. cbn [skipn]. rewrite Nnat.Nat2N.id. unfold len in L. rewrite u32_small by lia.
    assert (FL : length (firstn l src) = l) by (apply firstn_length_le; lia).
    split; [constructor; [|exact NI]|]. { intros E. rewrite E in FL. cbn in FL. lia. }
    split. { cbn [enc]. rewrite app_length, FL. cbn. lia. }
    exists (skipn (S l) src). cbn [enc]. rewrite <- app_assoc. cbn [app]. rewrite <- (firstn_skipn l src) at 1. f_equal.
    specialize (Z ltac:(lia)). clear - Z. revert l Z. induction src as [|b src IH]; intros [|l] Z; cbn in *; try discriminate; [congruence|auto].
  - intros v rest G. inversion_clear G as [|m b E| |]. intros L. cbn [enc des] in *. rewrite len_app in *. rewrite <- E in *.
    destruct (N.ltb_spec (len b + len rest) (len b)); [lia|]. unfold read_at. rewrite len_app. destruct (N.leb_spec (0 + len b) (len b + len rest)); [|lia].
    change (N.to_nat 0) with 0%nat. cbn [skipn]. rewrite firstn_len_app. rewrite u32_small by lia. reflexivity.
  - intros src L B. cbn [des]. destruct (N.ltb_spec (len src) n); [exact I|]. unfold read_at. destruct (N.leb_spec (0 + n) (len src)); [|lia].
    change (N.to_nat 0) with 0%nat. cbn [skipn]. rewrite u32_small by lia. assert (FL : len (firstn (N.to_nat n) src) = n) by (apply len_firstn; lia).
    split; [constructor; exact FL|]. split; [cbn [enc]; symmetry; exact FL|]. exists (skipn (N.to_nat n) src). cbn [enc]. symmetry. apply firstn_skipn.
  - intros v rest G. inversion_clear G as [| |t' vs LV F|]. intros L. rewrite des_vec. cbn [enc] in *. set (c := le16 (N.of_nat (length vs))) in *.
    rewrite <- app_assoc in *. assert (C2 : len c = 2) by reflexivity. rewrite len_app, C2 in *. destruct (N.ltb_spec (2 + len (concat (map enc vs) ++ rest)) 2); [lia|].
    unfold read_at. rewrite len_app, C2. destruct (N.leb_spec (0 + 2) (2 + len (concat (map enc vs) ++ rest))); [|lia].
    change (N.to_nat 0) with 0%nat. cbn [skipn]. rewrite <- C2 at 1. rewrite firstn_len_app. unfold c at 2. rewrite of_le16_le16 by lia. rewrite Nnat.Nat2N.id.
    rewrite <- C2. rewrite (dvec_enc t IH vs F c rest []); [reflexivity|]. rewrite len_app, C2. exact L.
  - intros src L B. rewrite des_vec. destruct (N.ltb_spec (len src) 2); [exact I|]. unfold read_at. destruct (N.leb_spec (0 + 2) (len src)); [|lia].
    change (N.to_nat 0) with 0%nat. cbn [skipn]. destruct src as [|x [|y src]]; [unfold len in H; cbn [length] in H; lia|unfold len in H; cbn [length] in H; lia|].
    change (firstn (N.to_nat 2) (x :: y :: src)) with [x; y]. inversion_clear B as [|? ? BX B1]. inversion_clear B1 as [|? ? BY B2].
    pose proof (dvec_dec t IH (N.to_nat (of_le16 [x; y])) [x; y] src []) as G. cbn [app] in G. specialize (G L B2). change (len [x; y]) with 2 in G.
    destruct (dvec_go t (x :: y :: src) _ 2 []) as [v n| |]; [|exact I|exact G].
    destruct G as (vs & rest & -> & F & K & -> & ->). cbn [rev app].
    assert (OB : of_le16 [x; y] <= 65535) by (unfold of_le16; lia).
    split; [constructor; [lia|exact F]|]. cbn [enc]. rewrite K, Nnat.N2Nat.id, le16_of_le16 by assumption. rewrite len_app. split; [reflexivity|].
    exists rest. reflexivity.
  - intros v rest G. inversion_clear G as [| | |ts' vs F]. intros L. rewrite des_struct. cbn [enc] in *.
    pose proof (dstruct_enc ts IH vs F [] rest []) as E. cbn [app rev] in E. change (len []) with 0 in E. apply E. exact L.
  - intros src L B. rewrite des_struct. pose proof (dstruct_dec ts IH [] src []) as G. cbn [app] in G. specialize (G L B). change (len []) with 0 in G.
    destruct (dstruct_go src ts 0 0 []) as [v n| |]; [|exact I|exact G]. destruct G as (vs & rest & -> & F & -> & ->). cbn [rev app].
    split; [constructor; exact F|]. cbn [enc]. split; [lia|]. exists rest. reflexivity.
Qed.
