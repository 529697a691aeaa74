(** Specification of the comparators: the orders they must implement. *)
From Verif Require Import Base ComparatorModel.

(** Specification: [cmp] is the three-way comparison of the strict order [lt] with equality
    [eq]. *)
Record three_way {T} (eq lt : T → T → Prop) (cmp : T → T → Z) : Prop := {
  tw_range : ∀ a b, cmp a b = -1 ∨ cmp a b = 0 ∨ cmp a b = 1;
  tw_eq : ∀ a b, cmp a b = 0 ↔ eq a b;
  tw_lt : ∀ a b, cmp a b = -1 ↔ lt a b;
  tw_gt : ∀ a b, cmp a b = 1 ↔ lt b a;
  tw_trans : ∀ a b c, lt a b → lt b c → lt a c;
}.

(** Independent meaning of the string order. *)
Definition str_lt (a b : gostring) : Prop :=
  ∃ p, (∃ y r, a = p ∧ b = p ++ y :: r) ∨ (∃ x y r1 r2, a = p ++ x :: r1 ∧ b = p ++ y :: r2 ∧ x < y).

(** Floats: NaNs are all equal and precede every number; numbers compare by value. *)
Definition f_eq F (a b : float) : Prop :=
  (isNaN F a = true ∧ isNaN F b = true) ∨
  (isNaN F a = false ∧ isNaN F b = false ∧ f_val F a = f_val F b).
Definition f_lt F (a b : float) : Prop :=
  (isNaN F a = true ∧ isNaN F b = false) ∨
  (isNaN F a = false ∧ isNaN F b = false ∧ f_val F a < f_val F b).

(** Complex numbers without NaN parts: lexicographic, real part first. *)
Definition c_nonan F (a : complex) : Prop := isNaN F (re a) = false ∧ isNaN F (im a) = false.
Definition c_lt F (a b : complex) : Prop :=
  f_val F (re a) < f_val F (re b) ∨ (f_val F (re a) = f_val F (re b) ∧ f_val F (im a) < f_val F (im b)).
Definition c_eq F (a b : complex) : Prop :=
  f_val F (re a) = f_val F (re b) ∧ f_val F (im a) = f_val F (im b).

