(** OffsetPtr and its address arithmetic.  Paths are relative to /repo/score/memory/shared.

    Addresses (std::uintptr_t) and sizes (std::size_t) are [Z] in [0, 2^64), offsets
    (std::ptrdiff_t) are [Z] in [-2^63, 2^63): the 64 bit platforms the code supports. *)
From Verif Require Export RegionModel.
Local Open Scope Z_scope.

Definition W64 : Z := 18446744073709551616.
Definition H63 : Z := 9223372036854775808.

Inductive res (A : Type) := Ok (a : A) | Term (* assertion: the process terminates *) | UB (* undefined behaviour *).
Arguments Ok {A} a.
Arguments Term {A}.
Arguments UB {A}.

Definition bind {A B} (x : res A) (f : A -> res B) : res B :=
  match x with Ok a => f a | Term => Term | UB => UB end.
Notation "'do' x <- e ; k" := (bind e (fun x => k)) (at level 200, x name, e at level 100, k at level 200).

(** pointer_arithmetic_util.cpp:33-43 *)
Definition AddOffset (p o : Z) : res Z := if p <=? (W64 - 1) - o then Ok (p + o) else Term.
(** pointer_arithmetic_util.cpp:58-64 *)
Definition SubOffset (p o : Z) : res Z := if o <=? p then Ok (p - o) else Term.
(** pointer_arithmetic_util.cpp:45-56; safe_math::Abs is the mathematical absolute value *)
Definition AddSignedOffset (p o : Z) : res Z := if o <? 0 then SubOffset p (- o) else AddOffset p o.

(** pointer_arithmetic_util.cpp:125-168 *)
Definition SubtractPointersBytes (a b : Z) : res Z :=
  if b <? a then
    do r <- SubOffset a b; if H63 - 1 <? r then Term else Ok r
  else
    do r <- SubOffset b a;
    if r =? H63 then Ok (- H63) else if H63 - 1 <? r then Term else Ok (-1 * r).

(** pointer_arithmetic_util.h:154-166 *)
Definition AbsoluteValue (v : Z) : Z := if v =? - H63 then (H63 - 1) + 1 else Z.abs v.
(** pointer_arithmetic_util.h:179-203; the unsigned subtraction wraps *)
Definition UndoCast (u : Z) : Z :=
  if u <=? H63 - 1 then u else ((u - (- H63) mod W64) mod W64) + (- H63).
(** pointer_arithmetic_util.h:212-236 *)
Definition AddUnsignedToSigned (s u : Z) : res Z :=
  let r := UndoCast ((s mod W64 + u) mod W64) in if s <=? r then Ok r else Term.
(** pointer_arithmetic_util.h:239-263 *)
Definition SubtractUnsignedFromSigned (s u : Z) : res Z :=
  let r := UndoCast ((s mod W64 - u) mod W64) in if r <=? s then Ok r else Term.

(** offset_ptr.h:311-320; memory_region_bounds.h: (0, 0) = no bounds *)
Record optr := mkOptr { o_off : Z; o_lo : Z; o_hi : Z }.

(** offset_ptr.h:86 *)
Definition kNull : Z := 1.
(** sizeof(OffsetPtr<T>): an offset and two addresses *)
Definition OPTR_SIZE : Z := 24.
(** memory_region_bounds.cpp:54-57 *)
Definition has_bounds (p : optr) : bool := negb ((o_lo p =? 0) || (o_hi p =? 0)).

(** offset_ptr.h:455-466; [q] = 0 is nullptr *)
Definition OffsetFromPointer (addr q : Z) : res Z :=
  if q =? 0 then Ok kNull
  else do d <- SubtractPointersBytes q addr; if d =? kNull then Term else Ok d.

(** offset_ptr.h:473-501, 591-597 *)
Definition PointerFromOffset (addr off : Z) : res Z :=
  if off =? kNull then Ok 0 else AddSignedOffset addr off.

(** offset_ptr_bounds_check.cpp:33-36 *)
Definition in_bounds (q lo hi : Z) : bool := (lo <=? q) && (q <=? hi).

(** offset_ptr_bounds_check.cpp:40-85; false and Term both terminate the caller (offset_ptr.h:565) *)
Definition check_in_shm (addr off lo hi sz : Z) : res bool :=
  do e <- AddOffset addr OPTR_SIZE;
  if negb (in_bounds e lo hi) then Ok false else
  do q <- AddSignedOffset addr off;
  if negb (in_bounds q lo hi) then Ok false else
  do z <- AddOffset q sz;
  if negb (in_bounds z lo hi) then Ok false else Ok true.

(** offset_ptr_bounds_check.cpp:93-145 *)
Definition check_not_in_shm (regs : regions) (addr : Z) (p : optr) (off sz : Z) : res bool :=
  do e <- AddOffset addr OPTR_SIZE;
  match GetBoundsFromAddress regs e with
  | Some _ => Ok false
  | None =>
      if has_bounds p then
        do q <- AddSignedOffset addr off;
        if negb (in_bounds q (o_lo p) (o_hi p)) then Ok false else
        do z <- AddOffset q sz;
        if negb (in_bounds z (o_lo p) (o_hi p)) then Ok false else Ok true
      else Ok true
  end.

Section Env.
Variable chk : bool.        (* offset_ptr.cpp:24 bounds_checking_enabled *)
Variable regs : regions.    (* regions known to the MemoryResourceRegistry *)

(** offset_ptr.h:550-588 *)
Definition GetPointerWithBoundsCheck (addr off : Z) (p : optr) (sz : Z) : res Z :=
  if chk then
    do b <- (match GetBoundsFromAddress regs addr with
             | Some (lo, hi) => check_in_shm addr off lo hi sz
             | None => check_not_in_shm regs addr p off sz
             end);
    if b then PointerFromOffset addr off else Term
  else PointerFromOffset addr off.

(** offset_ptr.h:211-215 get(), operator->, conversion to pointer *)
Definition get (addr : Z) (p : optr) (sz : Z) : res Z := GetPointerWithBoundsCheck addr (o_off p) p sz.
(** offset_ptr.h:624-630 operator* *)
Definition deref (addr : Z) (p : optr) (sz : Z) : res Z :=
  do q <- get addr p sz; if q =? 0 then Term else Ok q.
(** offset_ptr.h:633-640 operator[]; the signed multiplication and addition are unchecked *)
Definition index (addr : Z) (p : optr) (sz idx : Z) : res Z :=
  let m := sz * idx in
  let o := o_off p + m in
  if (m <? - H63) || (H63 <=? m) || (o <? - H63) || (H63 <=? o) then UB else
  do q <- GetPointerWithBoundsCheck addr o p sz; if q =? 0 then Term else Ok q.

(** the pointer without bounds check, as used by comparisons (offset_ptr.h:752-980) *)
Definition raw (addr : Z) (p : optr) : res Z := PointerFromOffset addr (o_off p).

(** offset_ptr.h:398-401 construction from and 427-432 assignment of a raw pointer *)
Definition assign_raw (addr q : Z) : res optr := do o <- OffsetFromPointer addr q; Ok (mkOptr o 0 0).

(** offset_ptr.h:505-546 CopyFrom (copy construction, copy assignment, conversion).  The static_cast
    between pointer types is the identity on addresses (no multiple inheritance). *)
Definition copy (src : Z) (p : optr) (tgt : Z) : res optr :=
  let '(lo, hi) :=
    if chk then
      match GetBoundsFromAddress regs src, GetBoundsFromAddress regs tgt with
      | Some (lo, hi), None => (lo, hi)
      | None, None => (o_lo p, o_hi p)
      | _, Some _ => (0, 0)
      end
    else (0, 0) in
  do q <- raw src p;
  if q =? 0 then Ok (mkOptr kNull 0 0)
  else do o <- OffsetFromPointer tgt q; Ok (mkOptr o lo hi).

(** offset_ptr.h:436-444 copy assignment of an object to itself does nothing *)
Definition copy_assign (src : Z) (p : optr) (tgt : Z) : res optr :=
  if src =? tgt then Ok p else copy src p tgt.

(** offset_ptr.h:1094-1099: (new left, new right) *)
Definition swap (la : Z) (l : optr) (ra : Z) (r : optr) : res (optr * optr) :=
  do q <- raw ra r;
  do r' <- copy_assign la l ra;
  do l' <- assign_raw la q;
  Ok (l', r').

End Env.

(** offset_ptr.h:644-672 *)
Definition IncrementOffset (p : optr) (sz n : Z) : res optr :=
  if n <=? (W64 - 1) / sz
  then do o <- AddUnsignedToSigned (o_off p) (n * sz); Ok (mkOptr o (o_lo p) (o_hi p)) else Term.
Definition DecrementOffset (p : optr) (sz n : Z) : res optr :=
  if n <=? (W64 - 1) / sz
  then do o <- SubtractUnsignedFromSigned (o_off p) (n * sz); Ok (mkOptr o (o_lo p) (o_hi p)) else Term.
(** offset_ptr.h:675-704 (also ++, --, + and - through them) *)
Definition add_assign (p : optr) (sz d : Z) : res optr :=
  if 0 <? d then IncrementOffset p sz d
  else if d <? 0 then DecrementOffset p sz (AbsoluteValue d) else Ok p.
Definition sub_assign (p : optr) (sz d : Z) : res optr :=
  if 0 <? d then DecrementOffset p sz d
  else if d <? 0 then IncrementOffset p sz (AbsoluteValue d) else Ok p.

(** offset_ptr.h:1024-1090; safe_math::Divide (not part of the repository) is taken to fail exactly
    if the division is not exact, as the comment at 1032-1038 says *)
Definition difference (a1 : Z) (p1 : optr) (a2 : Z) (p2 : optr) (sz : Z) : res Z :=
  do q1 <- raw a1 p1;
  do q2 <- raw a2 p2;
  do d <- SubtractPointersBytes q1 q2;
  if d mod sz =? 0 then Ok (d / sz) else Term.

(** offset_ptr.h:752-914 *)
Definition op_eq (a1 : Z) (p1 : optr) (a2 : Z) (p2 : optr) : res bool :=
  do q1 <- raw a1 p1; do q2 <- raw a2 p2; Ok (q1 =? q2).
Definition op_lt (a1 : Z) (p1 : optr) (a2 : Z) (p2 : optr) : res bool :=
  do q1 <- raw a1 p1; do q2 <- raw a2 p2; Ok (q1 <? q2).
Definition op_le (a1 : Z) (p1 : optr) (a2 : Z) (p2 : optr) : res bool :=
  do q1 <- raw a1 p1; do q2 <- raw a2 p2; Ok (q1 <=? q2).
