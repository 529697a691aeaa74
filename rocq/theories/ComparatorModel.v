(** Model of utils/comparator/comparator.go. *)
From Verif Require Import Base.

(** comparator.go:30-38 OrderedTypeCmp[T Ordered]; [eqb] and [ltb] are the type's Go
    operators [==] and [<]. *)
Definition OrderedTypeCmp {T} (eqb ltb : T → T → bool) (a b : T) : Z :=
  if eqb a b then 0 else if ltb a b then -1 else 1.

(** comparator.go:40-45 Reverse; Go's [-x] on a 64-bit int wraps at the minimum. *)
Definition neg64 (x : Z) : Z := if x =? - 2 ^ 63 then x else - x.
(** comparator.go:41-45 Reverse *)
Definition Reverse {T} (cmp : T → T → Z) : T → T → Z := fun a b => neg64 (cmp a b).

(** comparator.go:47-60 *)
Definition IntComparator (a b : Z) : Z := if a =? b then 0 else if a <? b then -1 else 1.
(** comparator.go:62-75 *)
Definition UintComparator (a b : Z) : Z := if a =? b then 0 else if a <? b then -1 else 1.
(** comparator.go:77-90 *)
Definition Int8Comparator (a b : Z) : Z := if a =? b then 0 else if a <? b then -1 else 1.
(** comparator.go:92-105 *)
Definition Uint8Comparator (a b : Z) : Z := if a =? b then 0 else if a <? b then -1 else 1.
(** comparator.go:107-120 *)
Definition Int16Comparator (a b : Z) : Z := if a =? b then 0 else if a <? b then -1 else 1.
(** comparator.go:122-135 *)
Definition Uint16Comparator (a b : Z) : Z := if a =? b then 0 else if a <? b then -1 else 1.
(** comparator.go:137-150 *)
Definition Int32Comparator (a b : Z) : Z := if a =? b then 0 else if a <? b then -1 else 1.
(** comparator.go:152-165 *)
Definition Uint32Comparator (a b : Z) : Z := if a =? b then 0 else if a <? b then -1 else 1.
(** comparator.go:167-180 *)
Definition Int64Comparator (a b : Z) : Z := if a =? b then 0 else if a <? b then -1 else 1.
(** comparator.go:182-195 *)
Definition Uint64Comparator (a b : Z) : Z := if a =? b then 0 else if a <? b then -1 else 1.
(** comparator.go:244-257 *)
Definition UintptrComparator (a b : Z) : Z := if a =? b then 0 else if a <? b then -1 else 1.

(** comparator.go:259-272 *)
Definition BoolComparator (a b : bool) : Z :=
  if Bool.eqb a b then 0 else if negb a && b then -1 else 1.

(** Go strings are byte sequences; [==] and [<] compare bytes lexicographically. *)
Definition gostring : Type := list Z.
(** Go's == on strings *)
Fixpoint str_eqb (a b : gostring) : bool :=
  match a, b with
  | [], [] => true
  | x :: a', y :: b' => (x =? y) && str_eqb a' b'
  | _, _ => false
  end.
(** Go's < on strings: byte-wise lexicographic *)
Fixpoint str_ltb (a b : gostring) : bool :=
  match a, b with
  | _, [] => false
  | [], _ :: _ => true
  | x :: a', y :: b' => if x <? y then true else if y <? x then false else str_ltb a' b'
  end.
(** comparator.go:229-242 *)
Definition StringComparator (a b : gostring) : Z :=
  if str_eqb a b then 0 else if str_ltb a b then -1 else 1.

(** IEEE-754 floats as bit patterns: sign, biased exponent, mantissa fields, for a format
    with [ew] exponent bits and [mw] mantissa bits (float32: 8, 23; float64: 11, 52). *)
Record float := MkFloat { f_neg : bool; f_exp : Z; f_man : Z }.
(** exponent and mantissa widths of an IEEE 754 binary format *)
Record format := MkFormat { ew : Z; mw : Z }.
(** Go's float32: IEEE 754 binary32 *)
Definition float32 := MkFormat 8 23.
(** Go's float64: IEEE 754 binary64 *)
Definition float64 := MkFormat 11 52.
(** the bit patterns of a format *)
Definition f_wf (F : format) (a : float) : Prop :=
  0 <= f_exp a < 2 ^ ew F ∧ 0 <= f_man a < 2 ^ mw F.
(** math.IsNaN: all exponent bits set and a non-zero mantissa. *)
Definition isNaN (F : format) (a : float) : bool :=
  (f_exp a =? 2 ^ ew F - 1) && negb (f_man a =? 0).
(** The numeric value of a non-NaN pattern, scaled by the (common) power of two that makes
    every finite float an integer; the infinities get a value beyond every finite one. *)
Definition f_mag (F : format) (a : float) : Z :=
  if f_exp a =? 0 then f_man a else (2 ^ mw F + f_man a) * 2 ^ (f_exp a - 1).
(** order-preserving integer image of a non-NaN pattern: its scaled magnitude with sign *)
Definition f_val (F : format) (a : float) : Z :=
  if f_neg a then - f_mag F a else f_mag F a.
(** Go's [==] and [<] on floats: false as soon as one side is NaN. *)
Definition f_eqb (F : format) (a b : float) : bool :=
  negb (isNaN F a) && negb (isNaN F b) && (f_val F a =? f_val F b).
(** Go's < on floats: false when an operand is NaN *)
Definition f_ltb (F : format) (a b : float) : bool :=
  negb (isNaN F a) && negb (isNaN F b) && (f_val F a <? f_val F b).

(** comparator.go:202-211 Float32Comparator and 213-227 Float64Comparator: same body, on the
    respective format (float64(a) in line 203 is exact and preserves NaN). *)
Definition FloatComparator (F : format) (a b : float) : Z :=
  let aIsNaN := isNaN F a in
  let bIsNaN := isNaN F b in
  if f_eqb F a b || (aIsNaN && bIsNaN) then 0
  else if f_ltb F a b || aIsNaN then -1
  else 1.
(** comparator.go:202-211 Float32Comparator *)
Definition Float32Comparator := FloatComparator float32.
(** comparator.go:218-227 Float64Comparator *)
Definition Float64Comparator := FloatComparator float64.

(** Complex numbers: real and imaginary parts; [==] compares both. *)
Record complex := MkComplex { re : float; im : float }.
(** Go's == on complex numbers: both parts equal *)
Definition c_eqb (F : format) (a b : complex) : bool :=
  f_eqb F (re a) (re b) && f_eqb F (im a) (im b).
(** comparator.go:274-290, with the comparison of [real(a)] to itself in line 283. *)
Definition Complex64Comparator (a b : complex) : Z :=
  if c_eqb float32 a b then 0
  else if f_ltb float32 (re a) (re a) then -1
  else if f_eqb float32 (re a) (re b) && f_ltb float32 (im a) (im b) then -1
  else 1.
(** comparator.go:292-308 *)
Definition Complex128Comparator (a b : complex) : Z :=
  if c_eqb float64 a b then 0
  else if f_ltb float64 (re a) (re b) then -1
  else if f_eqb float64 (re a) (re b) && f_ltb float64 (im a) (im b) then -1
  else 1.
