(** What a world of arrays is: a list of sequences whose lengths never change.
    [None]: the call must panic. *)
From Verif Require Import Base ArrayModel.
Open Scope Z_scope.

Section spec.
  Context {T : Type} (zero : T).
  Notation st := (list (list T)).
  Definition a_nth (l : list T) (pos : Z) : option T := if bool_decide (0 <= pos) then l !! Z.to_nat pos else None.
  Definition a_spec (o : a_op T) (s : st) : option (a_out T * st) :=
    match o with
    | ANew n => if bool_decide (0 <= n) then Some (AArr (length s), s ++ [replicate (Z.to_nat n) zero]) else None
    | AFrom a => l ← s !! a; Some (AArr (length s), s ++ [l])
    | AFill a x => l ← s !! a; Some (AUnit, <[a := replicate (length l) x]> s)
    | ASet a pos x => l ← s !! a;
        Some (AUnit, <[a := if bool_decide (0 <= pos) then <[Z.to_nat pos := x]> l else l]> s)
    | AAt a pos => l ← s !! a; x ← a_nth l pos; Some (AVal x, s)
    | AFront a => l ← s !! a; x ← head l; Some (AVal x, s)
    | ABack a => l ← s !! a; x ← last l; Some (AVal x, s)
    | ASize a => l ← s !! a; Some (AInt (Z.of_nat (length l)), s)
    | AEmpty a => l ← s !! a; Some (ABool (bool_decide (l = [])), s)
    | ASwap a b => l ← s !! a; k ← s !! b;
        Some (AUnit, if bool_decide (length l = length k) then <[b := l]> (<[a := k]> s) else s)
    end.
End spec.
