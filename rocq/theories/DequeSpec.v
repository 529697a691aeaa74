(** What a deque is: a sequence.  [None]: the call must panic. *)
From Verif Require Import Base DequeModel.
Open Scope Z_scope.

Section spec.
  Context {T : Type}.
  Definition in_range (i : Z) (l : list T) : Prop := 0 <= i < Z.of_nat (length l).
  Definition dq_nth (l : list T) (i : Z) : option T := if bool_decide (0 <= i) then l !! Z.to_nat i else None.
  Definition dq_spec (o : dq_op T) (l : list T) : option (dq_out T * list T) :=
    match o with
    | DPushFront x => Some (DUnit, x :: l)
    | DPushBack x => Some (DUnit, l ++ [x])
    | DInsert i x => Some (DUnit,
        if bool_decide (0 <= i <= Z.of_nat (length l)) then take (Z.to_nat i) l ++ x :: drop (Z.to_nat i) l else l)
    | DSet i x => if bool_decide (0 <= i < Z.of_nat (length l)) then Some (DBool true, <[Z.to_nat i := x]> l) else Some (DBool false, l)
    | DFront => x ← head l; Some (DVal x, l)
    | DBack => x ← last l; Some (DVal x, l)
    | DAt i => x ← dq_nth l i; Some (DVal x, l)
    | DPopFront => x ← head l; Some (DVal x, tail l)
    | DPopBack => x ← last l; Some (DVal x, take (length l - 1) l)
    | DEraseAt i => Some (DUnit,
        if bool_decide (0 <= i < Z.of_nat (length l)) then take (Z.to_nat i) l ++ drop (S (Z.to_nat i)) l else l)
    | DEraseRange i j => Some (DUnit,
        if bool_decide (0 <= i ∧ i < j ∧ j <= Z.of_nat (length l)) then take (Z.to_nat i) l ++ drop (Z.to_nat j) l else l)
    | DClear => Some (DUnit, [])
    | DSize => Some (DInt (Z.of_nat (length l)), l)
    | DEmpty => Some (DBool (bool_decide (l = [])), l)
    end.
End spec.

(** Memory a deque keeps alive: segments in the slot table, slots, pooled segments. *)
Definition dq_live {T} (d : deque T) : nat := length (omap id (dq_segs d)).
Definition dq_slots {T} (d : deque T) : nat := length (dq_segs d).
Definition dq_pooled {T} (d : deque T) : nat := length (dq_pool d).
