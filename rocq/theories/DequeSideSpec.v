(** Specification for C111: which segments of its memory a call on a deque writes. *)
From Verif Require Import Base DequeModel.
Open Scope nat_scope.

(** the call that led from d to d' wrote no segment of memory outside A (a segment made by the call
    counts as written) *)
Definition writes_within {T} (A : list nat) (d d' : deque T) : Prop :=
  ∀ a, a ∉ A → dq_heap d' !! a = dq_heap d !! a.
(** it wrote at most n segments *)
Definition writes_at_most {T} (n : nat) (d d' : deque T) : Prop :=
  ∃ A, length A <= n ∧ writes_within A d d'.
(** it wrote at least n different segments *)
Definition writes_at_least {T} (n : nat) (d d' : deque T) : Prop :=
  ∃ A, n <= length A ∧ NoDup A ∧ ∀ a, a ∈ A → dq_heap d' !! a ≠ dq_heap d !! a.
