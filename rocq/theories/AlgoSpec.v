(** What a range [first, last) is for the ConstIterator interface: the iterators visited from
    first until Equal(last), with the values they denote. *)
From Verif Require Import Base.
Section spec.
  Context {W T I : Type}.
  Context (next : I → M W I) (value : I → M W T) (equal : I → I → M W bool).
  Inductive irange (w : W) (last : I) : I → list (I * T) → Prop :=
  | ir_nil i : equal i last w = Ok (true, w) → irange w last i []
  | ir_cons i j x s : equal i last w = Ok (false, w) → value i w = Ok (x, w) → next i w = Ok (j, w) →
      irange w last j s → irange w last i ((i, x) :: s).

  (** r is the iterator of the first element satisfying P, or last if there is none *)
  Definition first_such (P : T → Prop) (s : list (I * T)) (last r : I) : Prop :=
    (∃ k x, s !! k = Some (r, x) ∧ P x ∧ ∀ j i y, (j < k)%nat → s !! j = Some (i, y) → ¬ P y) ∨
    (r = last ∧ ∀ i y, (i, y) ∈ s → ¬ P y).
  (** r is the iterator of the first element that no other element beats, or last if empty *)
  Definition first_extreme (beats : T → T → Prop) (s : list (I * T)) (last r : I) : Prop :=
    (s = [] ∧ r = last) ∨
    (∃ k x, s !! k = Some (r, x) ∧ (∀ i y, (i, y) ∈ s → ¬ beats y x) ∧
        ∀ j i y, (j < k)%nat → s !! j = Some (i, y) → beats x y).
End spec.
