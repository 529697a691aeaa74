(** What C108 talks about: how much memory a skip list takes. *)
From Verif Require Import Base SkipModel HeldSpec.
Open Scope Z_scope.

(** the list keeps [n] pointers: the forward pointers of the head, the cache of previous nodes, and the forward
    pointers of every element that can be reached from the list (skiplist.go:43-63; [sk_held] follows pointers
    from the list as the garbage collector does) *)
Definition takes {K V} (s : skip K V) (n : Z) : Prop :=
  ∃ xs : list nat, NoDup xs ∧ (∀ a, a ∈ xs ↔ sk_held s a) ∧
    n = Z.of_nat (length (sk_head s)) + Z.of_nat (length (sk_cache s)) +
        Z.of_nat (sum_list ((λ a, match sk_els s !! a with Some e => length (e_next e) | None => 0%nat end) <$> xs)).
