(** Specification of the sorting and searching algorithms on a range [a, b) of a sequence. *)
From Verif Require Import Base.
From Coq Require Import Sorted.
Open Scope nat_scope.

Section spec.
  Context {T : Type} (cmp : T → T → Z).
  (** ascending (neighbours and hence all pairs; [StronglySorted] is the pairwise form) *)
  Definition ascending (s : list T) : Prop := StronglySorted (λ x y, (cmp x y <= 0)%Z) s.
  (** the elements equal to x keep their relative order *)
  Definition same_order_of_equals (s s' : list T) : Prop :=
    ∀ x, filter (λ y, cmp x y = 0%Z) s' = filter (λ y, cmp x y = 0%Z) s.
  (** lexicographic order of sequences of the same length, elements compared by cmp *)
  Inductive lex_lt : list T → list T → Prop :=
  | lex_here x y s t : (cmp x y < 0)%Z → length s = length t → lex_lt (x :: s) (y :: t)
  | lex_there x y s t : cmp x y = 0%Z → lex_lt s t → lex_lt (x :: s) (y :: t).
  (** equal as far as cmp can tell *)
  Definition lex_eq (s t : list T) : Prop := Forall2 (λ x y, cmp x y = 0%Z) s t.
End spec.
