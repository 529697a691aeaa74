(** Properties C01-C05. *)
From Verif Require Import Base ComparatorModel ComparatorSpec ComparatorProofs.

(** C01 *)
Theorem int_comparators_total_order :
  Forall (three_way (T:=Z) eq Z.lt)
    [IntComparator; UintComparator; Int8Comparator; Uint8Comparator; Int16Comparator; Uint16Comparator;
     Int32Comparator; Uint32Comparator; Int64Comparator; Uint64Comparator; UintptrComparator;
     OrderedTypeCmp Z.eqb Z.ltb].
Proof. exact int_comparators_lemma. Qed.
Print Assumptions int_comparators_total_order.

Theorem string_comparators_total_order :
  three_way eq str_lt StringComparator ∧ three_way eq str_lt (OrderedTypeCmp str_eqb str_ltb).
Proof. exact (conj string_three_way ordered_str_three_way). Qed.
Print Assumptions string_comparators_total_order.

Theorem bool_comparator_total_order :
  three_way eq (fun a b => a = false ∧ b = true) BoolComparator.
Proof. exact bool_three_way. Qed.
Print Assumptions bool_comparator_total_order.

Example strings_ordered : str_lt [97; 98] [97; 99; 1] ∧ StringComparator [97; 98] [97; 99; 1] = -1.
Proof. split; [|reflexivity]. exists [97]. right. exists 98, 99, [], [1]. done. Qed.

(** All these satisfy the container contract [CmpOK]. *)
Theorem builtin_comparators_ok :
  CmpOK IntComparator ∧ CmpOK Uint64Comparator ∧ CmpOK StringComparator ∧ CmpOK BoolComparator ∧
  CmpOK Float32Comparator ∧ CmpOK Float64Comparator.
Proof. exact builtin_ok_lemma. Qed.
Print Assumptions builtin_comparators_ok.

(** C02 *)
Theorem float_comparators_total_order :
  three_way (f_eq float32) (f_lt float32) Float32Comparator ∧
  three_way (f_eq float64) (f_lt float64) Float64Comparator.
Proof. exact (conj (float_three_way float32) (float_three_way float64)). Qed.
Print Assumptions float_comparators_total_order.

(** The value used to compare is faithful to the float format: strictly increasing in the
    exponent/mantissa fields, so distinct magnitudes never collapse. *)
Theorem float_value_strictly_monotone F a b : 0 < ew F → 0 < mw F → f_wf F a → f_wf F b →
  (f_exp a < f_exp b ∨ (f_exp a = f_exp b ∧ f_man a < f_man b)) → f_mag F a < f_mag F b.
Proof. exact (f_mag_mono F a b). Qed.
Print Assumptions float_value_strictly_monotone.

Example float_nan_first :
  let nan := MkFloat false 2047 1 in let minf := MkFloat true 2047 0 in
  f_wf float64 nan ∧ f_wf float64 minf ∧ Float64Comparator nan minf = -1 ∧ Float64Comparator nan nan = 0.
Proof. unfold f_wf, float64; simpl. repeat split; try lia; try reflexivity. Qed.

(** C03: false because of NaN; true without. *)
Theorem ordered_cmp_float_refuted :
  ∃ a b, f_wf float64 a ∧ f_wf float64 b ∧
    let cmp := OrderedTypeCmp (f_eqb float64) (f_ltb float64) in
    cmp a a ≠ 0 ∧ cmp a b > 0 ∧ cmp b a > 0.
Proof. exact ordered_float_bad. Qed.
Print Assumptions ordered_cmp_float_refuted.

Theorem ordered_cmp_float_partial F a b c :
  isNaN F a = false → isNaN F b = false → isNaN F c = false →
  let cmp := OrderedTypeCmp (f_eqb F) (f_ltb F) in
  (cmp a b = 0 ↔ f_val F a = f_val F b) ∧ (cmp a b = -1 ↔ f_val F a < f_val F b) ∧
  cmp b a = - cmp a b ∧ (cmp a b <= 0 → cmp b c <= 0 → cmp a c <= 0).
Proof. exact (ordered_float_nonan F a b c). Qed.
Print Assumptions ordered_cmp_float_partial.

(** C04 *)
Theorem complex128_total_order_partial a b : c_nonan float64 a → c_nonan float64 b →
  (Complex128Comparator a b = 0 ↔ c_eq float64 a b) ∧
  (Complex128Comparator a b = -1 ↔ c_lt float64 a b) ∧
  (Complex128Comparator a b = 1 ↔ c_lt float64 b a).
Proof. exact (complex128_ok a b). Qed.
Print Assumptions complex128_total_order_partial.
Theorem complex128_order_transitive_partial a b c :
  c_lt float64 a b → c_lt float64 b c → c_lt float64 a c.
Proof. exact (c_lt_trans float64 a b c). Qed.
Print Assumptions complex128_order_transitive_partial.

(** 0+0i and 1+0i (float32 bit pattern 0x3f800000: exponent 127, mantissa 0): both directions
    say "greater". *)
Theorem complex64_total_order_refuted :
  ∃ a b, c_nonan float32 a ∧ c_nonan float32 b ∧ c_lt float32 a b ∧
    Complex64Comparator a b = 1 ∧ Complex64Comparator b a = 1.
Proof. exact complex64_bad. Qed.
Print Assumptions complex64_total_order_refuted.

(** C05: every comparator whose results stay away from the minimal int (in particular every
    -1/0/1 comparator). *)
Theorem reverse_comparator {T} (cmp : T → T → Z) :
  CmpOK cmp → (∀ a b, - 2 ^ 63 < cmp a b < 2 ^ 63) →
  CmpOK (Reverse cmp) ∧ (∀ a b, Z.sgn (Reverse cmp a b) = Z.sgn (cmp b a)) ∧
  (∀ a b, Reverse (Reverse cmp) a b = cmp a b).
Proof. exact (reverse_ok cmp). Qed.
Print Assumptions reverse_comparator.

Example reverse_applies : CmpOK IntComparator ∧ (∀ a b, - 2 ^ 63 < IntComparator a b < 2 ^ 63) ∧
  Reverse IntComparator 3 5 = 1.
Proof. exact reverse_applies_lemma. Qed.
