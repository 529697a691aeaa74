(** Visitors that insert into the container they are visiting (C112): Traversal of a container that is not
    goroutine-safe, whose visitor is free to call Insert.  (With WithGoroutineSafe such a visitor never
    returns: C67.) *)
From Verif Require Import Base RbModel MapModel SetModel.
Local Open Scope go_scope.

Section visit.
  Context {K V D W : Type}.
  Notation RM := (M (rb K V)).
  (** what is handed to the visitor; the container's Insert; the visitor: from what it is handed and a
      state of its own, the Insert calls it makes, whether to go on, its next state *)
  Context (read : ptr → RM D) (ins : D → RM unit) (vis : D → W → list D * (bool * W)).
  (** the visitor's Insert calls, one after the other *)
  Fixpoint insert_all (ds : list D) : RM unit := match ds with [] => mret_ tt | d :: ds => ins d ;; insert_all ds end.
  (** ds/rbtree/rbtree.go:400-404, ds/set/set.go:164-168, ds/set/multiset.go:159-163:
      for node := t.First(); node != nil; node = node.Next() { if !visitor(...) { break } }
      The result (which Go does not return) is the list of visits: what was handed over, what was inserted.
      Out of fuel means: no end within f visits. *)
  Fixpoint visit_loop (f : nat) (x : ptr) (w : W) : RM (list (D * list D)) :=
    match x with
    | None => mret_ []
    | Some _ =>
      match f with
      | O => mfuel
      | S f =>
        let! d := read x in
        let r := vis d w in
        insert_all r.1 ;;
        if negb r.2.1 then mret_ [(d, r.1)]
        else let! y := next x in let! tr := visit_loop f y r.2.2 in mret_ ((d, r.1) :: tr)
      end
    end.
  (** rbtree.go:399-405, set.go:160-169, multiset.go:155-164 Traversal *)
  Definition visit_all (f : nat) (w : W) : RM (list (D * list D)) := let! x := rb_First in visit_loop f x w.
End visit.

(** rbtree.go:401 visitor(node.key, node.value) *)
Definition read_pair {K V} (x : ptr) : M (rb K V) (K * V) := let! k := key x in let! v := value x in mret_ (k, v).
(** rbtree.go:399-405 Traversal, map.go:181-186 and multimap.go:142-147 (which call it) with the container's Insert *)
Definition rb_visit {K V W} (cmp : K → K → Z) (vis : K * V → W → list (K * V) * (bool * W)) : nat → W → M (rb K V) (list (K * V * list (K * V))) :=
  visit_all read_pair (λ kv, rb_Insert cmp kv.1 kv.2) vis.
(** map.go:181-186 *)
Definition map_visit {K V W} (cmp : K → K → Z) (vis : K * V → W → list (K * V) * (bool * W)) : nat → W → M (rb K V) (list (K * V * list (K * V))) :=
  visit_all read_pair (λ kv, map_Insert cmp kv.1 kv.2) vis.
(** multimap.go:142-147 *)
Definition mm_visit {K V W} (cmp : K → K → Z) (vis : K * V → W → list (K * V) * (bool * W)) : nat → W → M (rb K V) (list (K * V * list (K * V))) :=
  visit_all read_pair (λ kv, mm_Insert cmp kv.1 kv.2) vis.
(** set.go:160-169 *)
Definition set_visit_ins {T W} (cmp : T → T → Z) (vis : T → W → list T * (bool * W)) : nat → W → M (rb T bool) (list (T * list T)) :=
  visit_all key (set_Insert cmp) vis.
(** multiset.go:155-164 *)
Definition ms_visit_ins {T W} (cmp : T → T → Z) (vis : T → W → list T * (bool * W)) : nat → W → M (rb T bool) (list (T * list T)) :=
  visit_all key (ms_Insert cmp) vis.
