(** The order in which a Hamt lists its keys: by the base-64 digits of their hashes, least significant first. *)
From Verif Require Import Base HamtModel HamtSpec.
Open Scope N_scope.

Definition digit (h : N) (i : nat) : N := h / 64 ^ N.of_nat i mod 64.
Definition digits_lt (h h' : N) : Prop := ∃ d, (∀ i, (i < d)%nat → digit h i = digit h' i) ∧ digit h d < digit h' d.
(** keys in this order; keys with the same hash stand together *)
Definition in_order (hf : key → N) (l : list key) : Prop := ∀ i j x y, (i < j)%nat → l !! i = Some x → l !! j = Some y → hf x = hf y ∨ digits_lt (hf x) (hf y).
(** no two keys of the map have the same hash *)
Definition no_collision {T} (hf : key → N) (m : gmap key T) : Prop := ∀ k k', is_Some (m !! k) → is_Some (m !! k') → hf k = hf k' → k = k'.
