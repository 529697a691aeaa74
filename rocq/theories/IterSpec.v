(** What a container must satisfy for its iterators: it acts as a sequence under Size/At/Set.
    [R w l] : in world w, object o holds the elements l. *)
From Verif Require Import Base.
Open Scope Z_scope.
Record ra_law {W T} (csize : nat → M W Z) (cat : nat → Z → M W T) (cset : nat → Z → T → M W unit)
    (o : nat) (R : W → list T → Prop) : Prop := {
  ra_size : ∀ w l, R w l → csize o w = Ok (Z.of_nat (length l), w);
  ra_at : ∀ w l i, R w l →
    cat o i w = match (if bool_decide (0 <= i) then l !! Z.to_nat i else None) with Some x => Ok (x, w) | None => Panic end;
  ra_set : ∀ w l i x, R w l →
    ∃ w', cset o i x w = Ok (tt, w') ∧ R w' (if bool_decide (0 <= i) then <[Z.to_nat i := x]> l else l);
}.
