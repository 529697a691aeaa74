(** What a priority queue is: a multiset of elements (a list up to permutation); Pop and Top
    may return any least element. *)
From Verif Require Import Base HeapModel.
Open Scope Z_scope.
Section spec.
  Context {T : Type} (cmp : T → T → Z).
  Definition least (x : T) (s : list T) : Prop := x ∈ s ∧ ∀ y, y ∈ s → cmp x y <= 0.
  (** heap order: no element is smaller than its parent *)
  Definition is_heap (l : list T) : Prop :=
    ∀ k x y, (0 < k)%nat → l !! ((k - 1) / 2)%nat = Some x → l !! k = Some y → cmp x y <= 0.

  (** [pq_allows o s r s']: operation o on contents s may return r and leave contents s';
      there is no s' when the call must panic *)
  Inductive pq_allows : pq_op T → list T → pq_out T → list T → Prop :=
  | allow_push x s : pq_allows (PPush x) s PUnit (x :: s)
  | allow_pop x s s' : least x s → s ≡ₚ x :: s' → pq_allows PPop s (PVal x) s'
  | allow_top x s : least x s → pq_allows PTop s (PVal x) s
  | allow_empty s : pq_allows PEmpty s (PBool (bool_decide (s = []))) s
  | allow_clear s : pq_allows PClear s PUnit []
  | allow_size s : pq_allows PSize s (PInt (Z.of_nat (length s))) s.
  (** the calls that must panic *)
  Definition pq_panics (o : pq_op T) (s : list T) : Prop := s = [] ∧ (o = PPop ∨ o = PTop).
End spec.
