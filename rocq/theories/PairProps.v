(** Property C59: pair. *)
From Verif Require Import Base PairModel.
Theorem pair_components {A} (eqb : A → A → bool) : (∀ x y, eqb x y = true ↔ x = y) →
  (∀ a b : A, pair_fronts (make_pair a b) = a ∧ pair_backs (make_pair a b) = b) ∧
  (∀ (p : gpair) (a b : A), pair_new p a b = make_pair a b) ∧
  (∀ a b c d, pair_equal eqb (make_pair a b) (make_pair c d) = true ↔ a = c ∧ b = d).
Proof.
  intros H. split_and!; [done|done|]. intros a b c d. unfold pair_equal. simpl. rewrite andb_true_iff, !H. done.
Qed.
Print Assumptions pair_components.
Example pair_example : pair_equal Z.eqb (pair_new (make_pair 1 2)%Z 3%Z 4%Z) (make_pair 3 4)%Z = true.
Proof. reflexivity. Qed.
