(** What a world of vectors is: a list of sequences; every call names one of them and changes
    only that one.  [None]: the call must panic. *)
From Verif Require Import Base VectorModel.
Open Scope Z_scope.

Section spec.
  Context {T : Type}.
  Notation st := (list (list T)).
  Definition ret (o : v_out T) (s : st) : option (v_out T * st) := Some (o, s).
  (** vector v becomes l *)
  Definition put (v : nat) (l : list T) (o : v_out T) (s : st) := Some (o, <[v := l]> s).
  Definition in_range (l : list T) (pos : Z) : bool := bool_decide (0 <= pos < Z.of_nat (length l)).
  (** elements of l with x inserted at pos, if 0 <= pos <= length l *)
  Definition ins (l : list T) (pos : Z) (x : T) : list T :=
    if bool_decide (0 <= pos <= Z.of_nat (length l))
    then take (Z.to_nat pos) l ++ x :: drop (Z.to_nat pos) l else l.
  (** elements of l without those at positions [first, last), if 0 <= first <= last <= length l *)
  Definition del (l : list T) (first last : Z) : list T :=
    if bool_decide (0 <= first <= last ∧ last <= Z.of_nat (length l))
    then take (Z.to_nat first) l ++ drop (Z.to_nat last) l else l.
  Definition nth_ (l : list T) (pos : Z) : option T :=
    if in_range l pos then l !! Z.to_nat pos else None.

  Definition v_spec (o : v_op T) (s : st) : option (v_out T * st) :=
    match o with
    | VNew c => if bool_decide (0 <= c) then Some (VVec (length s), s ++ [[]]) else None
    | VFrom v => l ← s !! v; Some (VVec (length s), s ++ [l])
    | VSize v => l ← s !! v; ret (VInt (Z.of_nat (length l))) s
    | VEmpty v => l ← s !! v; ret (VBool (bool_decide (l = []))) s
    | VPushBack v x => l ← s !! v; put v (l ++ [x]) VUnit s
    | VSetAt v pos x => l ← s !! v; put v (if in_range l pos then <[Z.to_nat pos := x]> l else l) VUnit s
    | VInsertAt v pos x => l ← s !! v; put v (ins l pos x) VUnit s
    | VEraseAt v pos => l ← s !! v; put v (del l pos (pos + 1)) VUnit s
    | VEraseIndexRange v first last => l ← s !! v; put v (del l first last) VUnit s
    | VAt v pos => l ← s !! v; x ← nth_ l pos; ret (VVal x) s
    | VFront v => l ← s !! v; x ← head l; ret (VVal x) s
    | VBack v => l ← s !! v; x ← last l; ret (VVal x) s
    | VPopBack v => l ← s !! v; x ← last l; put v (take (length l - 1) l) (VVal x) s
    | VReserve v c => l ← s !! v; ret VUnit s
    | VShrinkToFit v => l ← s !! v; ret VUnit s
    | VClear v => l ← s !! v; put v [] VUnit s
    | VResize v n => l ← s !! v;
        if bool_decide (Z.of_nat (length l) <= n) then ret VUnit s
        else if bool_decide (0 <= n) then put v (take (Z.to_nat n) l) VUnit s else None
    | VInsert v (_, pos) x => l ← s !! v; put v (ins l pos x) (VIter (v, pos)) s
    | VErase v (_, pos) => l ← s !! v; put v (del l pos (pos + 1)) (VIter (v, pos)) s
    | VEraseRange v (_, first) (_, last) => l ← s !! v; put v (del l first last) (VIter (v, first)) s
    end.
End spec.

(** the only existing vector a call may change *)
Definition v_target {T} (o : v_op T) : option nat :=
  match o with
  | VNew _ | VFrom _ | VSize _ | VEmpty _ | VAt _ _ | VFront _ | VBack _ => None
  | VPushBack v _ | VSetAt v _ _ | VInsertAt v _ _ | VEraseAt v _ | VEraseIndexRange v _ _ | VPopBack v
  | VReserve v _ | VShrinkToFit v | VClear v | VResize v _ | VInsert v _ _ | VErase v _ | VEraseRange v _ _ => Some v
  end.
