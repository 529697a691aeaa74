(** Clients that erase while they iterate over a Map (ds/map/map.go:92-100 EraseIter, ds/map/iterator.go):
    the loops a user writes, over the methods of MapModel.v. *)
From Verif Require Import Base RbModel MapModel.
Local Open Scope go_scope.

Section loops.
  Context {K V : Type} (cmp : K → K → Z) (pick : K → V → bool).
  Notation RM := (M (rb K V)).
  (** for it := m.Begin(); it.IsValid(); { next := it.Clone().Next(); if pick(it.Key(), it.Value()) { m.EraseIter(it) }; it = next }
      (map.go:92-100, iterator.go:18-28) *)
  Fixpoint erase_forward (rounds : nat) (it : ptr) : RM unit :=
    if mi_IsValid it then
      match rounds with
      | O => mfuel
      | S n => let! k := mi_Key it in let! v := mi_Value it in let! nx := mi_Next (mi_Clone it) in
               (if pick k v then map_EraseIter it else mret_ tt) ;; erase_forward n nx
      end
    else mret_ tt.
  (** the same from m.Last() with Prev (iterator.go:31-36) *)
  Fixpoint erase_backward (rounds : nat) (it : ptr) : RM unit :=
    if mi_IsValid it then
      match rounds with
      | O => mfuel
      | S n => let! k := mi_Key it in let! v := mi_Value it in let! pr := mi_Prev (mi_Clone it) in
               (if pick k v then map_EraseIter it else mret_ tt) ;; erase_backward n pr
      end
    else mret_ tt.
  (** forward, with a search after each erasure: if pick(…) { m.EraseIter(it); it = m.UpperBound(k) } else { it.Next() }
      (map.go:121-127 UpperBound) *)
  Fixpoint erase_search (rounds : nat) (it : ptr) : RM unit :=
    if mi_IsValid it then
      match rounds with
      | O => mfuel
      | S n => let! k := mi_Key it in let! v := mi_Value it in
               if pick k v then (map_EraseIter it ;; let! it := map_UpperBound cmp k in erase_search n it)
               else let! it := mi_Next it in erase_search n it
      end
    else mret_ tt.
End loops.
